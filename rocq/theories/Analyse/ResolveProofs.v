(** Classes named in a file are resolved in the namespace and with the imports
    that hold there. *)
From Coq Require Import String.
From Coq Require Import List Bool ZArith Lia.
From Coq.Strings Require Import Byte.
From Verif Require Import Base.Bytes Base.BytesProofs Base.Protocol Symbols.Symbols Symbols.KeysModel Text.TextModel Text.PositionModel Base.SortSearch
  Types.TypesModel Types.ImportModel Types.ImportSpec Types.ImportProofs Ide.VariableModel Rpc.StreamModel Rpc.StreamSpec
  Analyse.SyntaxModel Analyse.AnalyseModel Analyse.AnalyseSpec Analyse.SpecProofs Analyse.LeafProofs Analyse.AnalyseProofs
  Analyse.DeclareSpec Analyse.DeclareProofs Analyse.UseSpec Analyse.ResolveSpec Analyse.UseProofs Analyse.RefModel.
Import ListNotations.
Open Scope list_scope.
Open Scope nat_scope.

(** ** Tables with the same names *)
Lemma same_trans : forall a b c, same_names a b -> same_names b c -> same_names a c.
Proof.
  intros a b c (N & C & F & K) (N' & C' & F' & K'). split; [congruence|]. repeat split; intros x; etransitivity; eauto.
Qed.
Lemma names_added : forall m a i b, names_of (am_set m a i) b = if str_eqb a b then Some (it_name i) else names_of m b.
Proof.
  intros m a i b. unfold names_of. induction m as [|(c, j) m IH]; cbn [am_set am_get].
  - destruct (str_eqb a b); reflexivity.
  - destruct (str_eqb c a) eqn:Z; cbn [am_get].
    + apply str_eqb_eq in Z. subst c. destruct (str_eqb a b); reflexivity.
    + destruct (str_eqb c b) eqn:Y; [|exact IH]. apply str_eqb_eq in Y. subst c. destruct (str_eqb a b) eqn:X; [|reflexivity].
      apply str_eqb_eq in X. subst b. rewrite (proj2 (str_eqb_eq a a) eq_refl) in Z. discriminate Z.
Qed.
Definition alias_or_empty (o : option gostr) : gostr := match o with Some a => a | None => [] end.
Lemma same_add : forall t t' u r, same_names t t' ->
  same_names (add_use t u) (ImportModel.addUseToImportTable t' (u_kind u) (alias_or_empty (u_alias u)) (u_name u) r).
Proof.
  intros t t' [k n a r0] r (N & C & F & K). unfold add_use, ImportModel.addUseToImportTable. cbn [u_kind u_name u_alias]. fold (alias_or_empty a).
  destruct k; unfold addClassName, addFunctionName, addConstName, same_names, GetNamespace in *; cbn [ImportModel.namespace classes functions constants] in *;
    (split; [exact N|]); repeat split; intros x; auto; rewrite !names_added; cbn [it_name]; destruct (str_eqb _ x); auto.
Qed.
(** the tables of [imports] do not depend on the namespace *)
Definition same_maps (t t' : ImportTable) : Prop := classes t' = classes t /\ functions t' = functions t /\ constants t' = constants t.
Lemma maps_add : forall t t' u, same_maps t t' -> same_maps (add_use t u) (add_use t' u).
Proof.
  intros t t' [k n a r0] (C & F & K). unfold add_use, ImportModel.addUseToImportTable. cbn [u_kind u_name u_alias].
  destruct k; unfold addClassName, addFunctionName, addConstName, same_maps in *; cbn [classes functions constants]; rewrite ?C, ?F, ?K; auto.
Qed.
Lemma maps_fold : forall us t t', same_maps t t' -> same_maps (fold_left add_use us t) (fold_left add_use us t').
Proof. induction us as [|u us IH]; intros t t' H; [exact H|]. cbn [fold_left]. apply IH. apply maps_add. exact H. Qed.
Lemma add_namespace : forall t u, GetNamespace (add_use t u) = GetNamespace t.
Proof. intros t [k n a r]. unfold add_use, ImportModel.addUseToImportTable. cbn [u_kind]. destruct k; reflexivity. Qed.
Lemma fold_namespace : forall us t, GetNamespace (fold_left add_use us t) = GetNamespace t.
Proof. induction us as [|u us IH]; intros t; [reflexivity|]. cbn [fold_left]. rewrite IH. apply add_namespace. Qed.

Lemma last_pushed : forall A (l : list A) t, nth_error (l ++ [t]) (length (l ++ [t]) - 1) = Some t.
Proof. intros A l t. rewrite app_length. cbn [length]. replace (length l + 1 - 1) with (length l) by lia. rewrite nth_error_app2 by lia. rewrite Nat.sub_diag. reflexivity. Qed.
Lemma update_pushed : forall A (l : list A) t f, update_nth (l ++ [t]) (length (l ++ [t]) - 1) f = l ++ [f t].
Proof.
  intros A l t f. rewrite app_length. cbn [length]. replace (length l + 1 - 1) with (length l) by lia.
  induction l as [|x l IH]; [reflexivity|]. cbn [app length update_nth]. rewrite IH. reflexivity.
Qed.
Lemma fold_start : forall us t, start (fold_left add_use us t) = start t.
Proof.
  induction us as [|u us IH]; intros t; [reflexivity|]. cbn [fold_left]. rewrite IH. destruct u as [k n a r]. unfold add_use, ImportModel.addUseToImportTable. cbn [u_kind]. destruct k; reflexivity.
Qed.

(** the name of a class, see C32 *)
Lemma class_names : forall pos ns us n declared,
  Forall decl_ok us -> valid n -> ~ builtin (text n) -> spelled_alike us (first n) -> not_shadowed ImportModel.UseClass us n ->
  exists t, NewTypeString (text n) = Some t
    /\ fst (GetClassReferenceFQN (imports pos ns us) t) = php_resolve ImportModel.UseClass declared us ns n.
Proof.
  intros pos ns us n declared D V NB S NS. exists (TS (text n) (text n) 0). split; [now apply valid_type|].
  unfold GetClassReferenceFQN. rewrite valid_split by assumption. rewrite table_classes, imports_get by assumption. rewrite exact_php by assumption.
  unfold php_resolve. unfold not_shadowed in NS. destruct (absolute n) eqn:A.
  - assert (E : php_bound us ImportModel.UseClass (first n) = None) by (specialize (NS eq_refl); destruct (rest n); exact NS).
    rewrite E. cbn [option_map fst]. rewrite ImportProofs.placed by assumption. rewrite A. reflexivity.
  - destruct (php_bound us ImportModel.UseClass (first n)) as [u|] eqn:E; cbn [option_map fst item_of it_name].
    + destruct (rest n); reflexivity.
    + rewrite ImportProofs.placed, A, imports_namespace by assumption. destruct (rest n); reflexivity.
Qed.

Section Placed.
Context {TX : Text} {TR : TrimSpace} (d : document).
(** ** The current table at a place *)
(** the tables, with the one that is made when it is first needed *)
Definition tables_of (l : list ImportTable) : list ImportTable := match l with [] => [newImportTable (root_pos d)] | _ => l end.
Section Table.
(** whether there may be no table yet, the tables in front of the current one,
    and where that begins *)
Variables (fresh : Prop) (base : list ImportTable) (b : position).
Definition at_place (p : place) (l : list ImportTable) : Prop := Forall decl_ok (snd p) /\ (l = [] -> fresh) /\
  exists t, tables_of l = base ++ [t] /\ start t = b /\ same_names (imports zero_pos (fst p) (snd p)) t.
Lemma place_last : forall p l t, at_place p l -> nth_error l (length l - 1) = Some t -> l = base ++ [t] /\ start t = b /\ same_names (imports zero_pos (fst p) (snd p)) t.
Proof.
  intros p l t (_ & _ & t' & E & S & N) H. destruct l as [|x l]; [discriminate H|]. cbn [tables_of] in E. rewrite E, last_pushed in H. injection H as ->. auto.
Qed.
Lemma place_update : forall p q l t f, Forall decl_ok (snd q) -> nth_error l (length l - 1) = Some t -> start (f t) = start t -> same_names (imports zero_pos (fst q) (snd q)) (f t) ->
  at_place p l -> at_place q (update_nth l (length l - 1) f).
Proof.
  intros p q l t f D N St S H. destruct (place_last p l t H N) as (-> & St' & _). rewrite update_pushed. split; [exact D|]. split; [intros X; destruct base; discriminate X|]. exists (f t).
  split; [destruct base; reflexivity|split; [congruence|exact S]].
Qed.
Lemma place_push : forall p, at_place p [] -> at_place p [newImportTable (root_pos d)].
Proof. intros p (D & _ & H). split; [exact D|split; [discriminate|exact H]]. Qed.
Lemma place_same : forall p l t f, nth_error l (length l - 1) = Some t -> marks t (f t) -> at_place p l -> at_place p (update_nth l (length l - 1) f).
Proof.
  intros p l t f N (S & St) H. apply (place_update p p l t f (proj1 H) N St); [|exact H]. destruct (place_last p l t H N) as (_ & _ & H'). exact (same_trans _ _ _ H' S).
Qed.
Lemma curr_placed : forall p s i s', at_place p (st_imports s) -> currImportTable d s = Done i s' ->
  at_place p (st_imports s') /\ i = length (st_imports s') - 1 /\ exists t, nth_error (st_imports s') i = Some t /\ same_names (imports zero_pos (fst p) (snd p)) t.
Proof.
  intros p s i s' H E. destruct (calm_currImportTable d (at_place p) (place_push p) s i s' H E) as (H' & _).
  destruct (curr_place d s i s' E) as (Ei & L). split; [exact H'|]. split; [exact Ei|].
  destruct (nth_error (st_imports s') i) as [t|] eqn:N; [|apply nth_error_None in N; lia]. exists t. split; [reflexivity|].
  rewrite Ei in N. exact (proj2 (proj2 (place_last p _ t H' N))).
Qed.
Definition kind_of (u : use_type) : ImportModel.use_kind :=
  match u with UseClass => ImportModel.UseClass | UseFunction => ImportModel.UseFunction | UseConst => ImportModel.UseConst end.
Lemma add_placed : forall p u alias name r a s s', a <> Some [] -> at_place p (st_imports s) ->
  alias_or_empty a = alias -> addUseToImportTable d u alias name r s = Done tt s' -> forall r0,
  at_place (fst p, snd p ++ [Use (kind_of u) name a r0]) (st_imports s') /\ st_out s' = st_out s.
Proof.
  intros p u alias name r a s s' Na H A E r0. unfold addUseToImportTable in E. step E i s1 F. destruct (curr_placed p s i s1 H F) as (H1 & -> & t & N & S).
  split; [|rewrite (quiet_change_table _ _ _ _ _ E); exact (quiet_currImportTable d _ _ _ F)].
  destruct (change_done _ _ _ _ _ E) as (_ & Im). rewrite Im. apply (place_update p _ _ t _); [|exact N| | |exact H1].
  { cbn [snd]. apply Forall_app. split; [exact (proj1 H)|]. constructor; [exact Na|constructor]. }
  { destruct u; reflexivity. }
  cbn [fst snd]. unfold imports. rewrite fold_left_app. cbn [fold_left]. fold (imports zero_pos (fst p) (snd p)).
  pose proof (same_add _ _ (Use (kind_of u) name a r0) r S) as X. cbn [u_kind u_name u_alias] in X. rewrite A in X. destruct u; exact X.
Qed.
(** *** A use declaration *)
Lemma alias_done : forall ks s a s', getAliasFromNode d ks s = Done a s' -> s' = s /\ a = match find name_token ks with Some t => text_or_nothing d t | None => [] end.
Proof.
  induction ks as [|c ks IH]; intros s a s' E; cbn [getAliasFromNode find] in *; [done E; auto|].
  destruct c as [ty l|[ty o n]|u]; cbn [name_token]; try exact (IH _ _ _ E). cbn [t_type] in E. destruct ty; try exact (IH _ _ _ E).
  apply tokenText_done in E. destruct E as (X & ->). split; [reflexivity|]. unfold text_or_nothing. rewrite X. reflexivity.
Qed.
Lemma clause_alias_ok : forall kids, clause_alias d kids <> Some [].
Proof.
  intros kids. unfold clause_alias. destruct (last_of aliasing kids) as [n|]; [|discriminate]. destruct (find name_token (node_kids n)) as [t|]; [|discriminate].
  destruct (text_or_nothing d t); discriminate.
Qed.
Lemma alias_text : forall ks, alias_or_empty (match find name_token ks with Some t => match text_or_nothing d t with [] => None | a => Some a end | None => None end) =
  match find name_token ks with Some t => text_or_nothing d t | None => [] end.
Proof. intros ks. destruct (find name_token ks) as [t|]; [|reflexivity]. destruct (text_or_nothing d t); reflexivity. Qed.
Lemma clause_done : forall ks s r s', use_clause d ks s = Done r s' -> s' = s /\ fst r = clause_name d ks /\ snd r = alias_or_empty (clause_alias d ks).
Proof.
  intros ks. unfold use_clause. enough (X : forall ks ks0 na al s r s', na = clause_name d ks0 -> al = alias_or_empty (clause_alias d ks0) ->
    foldM ks (fun '(name, alias) c => match c with
      | Ph PhNamespaceName _ => n <- phraseText d c ;; ret (n, alias)
      | Ph PhNamespaceAliasingClause ks => a <- getAliasFromNode d ks ;; ret (name, a)
      | _ => ret (name, alias)
      end) (na, al) s = Done r s' -> s' = s /\ fst r = clause_name d (ks0 ++ ks) /\ snd r = alias_or_empty (clause_alias d (ks0 ++ ks))).
  { intros s r s' E. exact (X ks [] [] [] s r s' eq_refl eq_refl E). }
  clear ks. induction ks as [|c ks IH]; intros ks0 na al s r s' Hn Ha E; cbn [foldM] in E.
  - done E. rewrite app_nil_r. auto.
  - step E x s1 F. replace (ks0 ++ c :: ks) with ((ks0 ++ [c]) ++ ks) by (rewrite <- app_assoc; reflexivity).
    assert (Y : s1 = s /\ fst x = clause_name d (ks0 ++ [c]) /\ snd x = alias_or_empty (clause_alias d (ks0 ++ [c]))).
    { unfold clause_name, clause_alias. rewrite !last_of_snoc. fold (clause_name d ks0) (clause_alias d ks0).
      destruct c as [ty l|t|u]; cbn [namespace_name aliasing]; [|done F; auto|done F; auto].
      destruct ty; try (done F; auto; fail).
      - step F n s2 F2. apply phraseText_done in F2. destruct F2 as (T & ->). done F. cbn [fst snd]. unfold text_or_nothing. rewrite T. auto.
      - step F n s2 F2. apply alias_done in F2. destruct F2 as (-> & ->). done F. cbn [fst snd node_kids]. rewrite alias_text. auto. }
    destruct Y as (-> & Yn & Ya). destruct x as (xn, xa). exact (IH _ _ _ _ _ _ Yn Ya E).
Qed.
(** [p] with more imports *)
Definition plus (p : place) (us : list use_decl) : place := (fst p, snd p ++ us).
Lemma plus_plus : forall p us vs, plus (plus p us) vs = plus p (us ++ vs).
Proof. intros p us vs. unfold plus. cbn [fst snd]. rewrite app_assoc. reflexivity. Qed.
Lemma plus_nil : forall p, plus p [] = p.
Proof. intros (n, us). unfold plus. cbn [fst snd]. rewrite app_nil_r. reflexivity. Qed.
Lemma clauses_placed : forall u cs p s s', at_place p (st_imports s) -> processNamespaceUseClauseList d u cs s = Done tt s' ->
  at_place (plus p (flat_map (fun c => match c with
        | Ph PhNamespaceUseClause ks => [Use (kind_of u) (clause_name d ks) (clause_alias d ks) (NodeRange d c)]
        | _ => []
        end) cs)) (st_imports s') /\ st_out s' = st_out s.
Proof.
  intros u cs. unfold processNamespaceUseClauseList. induction cs as [|c cs IH]; intros p s s' H E; cbn [forM flat_map] in *.
  - done E. rewrite plus_nil. auto.
  - step E x s1 F. rewrite <- plus_plus.
    match goal with |- at_place (plus (plus p ?us) _) _ /\ _ => assert (Y : at_place (plus p us) (st_imports s1) /\ st_out s1 = st_out s) end.
    { destruct c as [ty l|t|e]; [|done F; rewrite plus_nil; auto|done F; rewrite plus_nil; auto].
      destruct ty; try (done F; rewrite plus_nil; auto; fail). step F r s2 F2. destruct (clause_done _ _ _ _ F2) as (-> & Rn & Ra). destruct x. rewrite Rn, Ra in F.
      exact (add_placed p u _ _ _ _ _ _ (clause_alias_ok _) H eq_refl F _). }
    destruct Y as (Y1 & Y2). destruct (IH _ _ _ Y1 E) as (Z1 & Z2). split; [exact Z1|congruence].
Qed.
Lemma group_placed : forall u prefix cs p s s', (forall ks, In (Ph PhNamespaceUseGroupClause ks) cs -> own_kind ks = None) -> at_place p (st_imports s) -> processNamespaceUseGroupClauseList d prefix u cs s = Done tt s' ->
  at_place (plus p (flat_map (fun c => match c with
        | Ph PhNamespaceUseGroupClause ks => [Use (match own_kind ks with Some k => k | None => kind_of u end) (prefix ++ BSL :: clause_name d ks) (clause_alias d ks) (NodeRange d c)]
        | _ => []
        end) cs)) (st_imports s') /\ st_out s' = st_out s.
Proof.
  intros u prefix cs. unfold processNamespaceUseGroupClauseList. induction cs as [|c cs IH]; intros p s s' Ok H E; cbn [forM flat_map] in *.
  - done E. rewrite plus_nil. auto.
  - step E x s1 F. rewrite <- plus_plus.
    match goal with |- at_place (plus (plus p ?us) _) _ /\ _ => assert (Y : at_place (plus p us) (st_imports s1) /\ st_out s1 = st_out s) end.
    { destruct c as [ty l|t|e]; [|done F; rewrite plus_nil; auto|done F; rewrite plus_nil; auto].
      destruct ty; try (done F; rewrite plus_nil; auto; fail). step F r s2 F2. destruct (clause_done _ _ _ _ F2) as (-> & Rn & Ra). destruct x. rewrite Rn, Ra in F.
      step F rg s3 F3. apply lift_done in F3. destruct F3 as (_ & ->). rewrite (Ok _ (or_introl eq_refl)). exact (add_placed p u _ _ _ _ _ _ (clause_alias_ok _) H eq_refl F _). }
    destruct Y as (Y1 & Y2). destruct (IH _ _ _ (fun ks I => Ok ks (or_intror I)) Y1 E) as (Z1 & Z2). split; [exact Z1|congruence].
Qed.
Lemma use_placed : forall kids p s s', (forall cs ks, In (Ph PhNamespaceUseGroupClauseList cs) kids -> In (Ph PhNamespaceUseGroupClause ks) cs -> own_kind ks = None) -> at_place p (st_imports s) -> processNamespaceUseDeclaration d kids s = Done tt s' ->
  at_place (plus p (imports_of d ImportModel.UseClass [] kids)) (st_imports s') /\ st_out s' = st_out s.
Proof.
  intros kids p s s' Ok H E. unfold processNamespaceUseDeclaration in E. step E r s1 F. done E.
  change ImportModel.UseClass with (kind_of UseClass). revert F. generalize UseClass (@nil byte). revert p s H Ok.
  induction kids as [|c kids IH]; intros p s H Ok u prefix F; cbn [foldM imports_of] in *; [done F; rewrite plus_nil; auto|].
  step F x s2 F2. assert (Ok' : forall cs ks, In (Ph PhNamespaceUseGroupClauseList cs) kids -> In (Ph PhNamespaceUseGroupClause ks) cs -> own_kind ks = None) by (intros cs ks I; apply Ok; right; exact I).
  assert (Same : forall u' prefix', x = (u', prefix') -> imports_of d (kind_of u) prefix (c :: kids) = imports_of d (kind_of u') prefix' kids -> s2 = s ->
    at_place (plus p (imports_of d (kind_of u) prefix (c :: kids))) (st_imports s1) /\ st_out s1 = st_out s).
  { intros u' prefix' -> -> ->. exact (IH p s H Ok' _ _ F). }
  destruct c as [ty l|[ty o n]|e].
  - destruct ty; try (done F2; eapply Same; reflexivity).
    + step F2 t s3 F3. apply phraseText_done in F3. destruct F3 as (T & ->). done F2. eapply Same; [reflexivity| |reflexivity]. cbn [imports_of]. unfold text_or_nothing. rewrite T. reflexivity.
    + step F2 v s3 F3. done F2. destruct v. destruct (clauses_placed _ _ _ _ _ H F3) as (Z1 & Z2). rewrite <- plus_plus.
      destruct (IH _ _ Z1 Ok' _ _ F) as (Y1 & Y2). split; [exact Y1|congruence].
    + step F2 v s3 F3. done F2. destruct v. destruct (group_placed _ _ _ _ _ _ (fun ks => Ok l ks (or_introl eq_refl)) H F3) as (Z1 & Z2). rewrite <- plus_plus.
      destruct (IH _ _ Z1 Ok' _ _ F) as (Y1 & Y2). split; [exact Y1|congruence].
  - cbn [t_type] in F2. destruct ty; done F2; eapply Same; reflexivity.
  - done F2. eapply Same; reflexivity.
Qed.

End Table.

(** ** Running over the items of a file *)
(** where a node begins *)
Notation begins := (begins d).
Definition groups_plain (kids : list node) : Prop := forall cs ks, In (Ph PhNamespaceUseGroupClauseList cs) kids -> In (Ph PhNamespaceUseGroupClause ks) cs -> own_kind ks = None.
Inductive step_item : item -> state -> state -> Prop :=
| step_namespace : forall n name s s' t, st_imports s' = st_imports s ++ [t] -> start t = begins n -> same_names (imports zero_pos name []) t -> st_out s' = st_out s ->
    step_item (INamespace n name) s s'
| step_uses : forall kids s s', groups_plain kids -> processNamespaceUseDeclaration d kids s = Done tt s' -> step_item (IUses (imports_of d ImportModel.UseClass [] kids)) s s'
| step_statement : forall fuel n s s', without is_import n -> scanNode d fuel n s = Done tt s' -> step_item (IStatement n) s s'.
Inductive runs : list item -> state -> state -> Prop :=
| runs_nil : forall s, runs [] s s
| runs_cons : forall i l s s1 s', step_item i s s1 -> runs l s1 s' -> runs (i :: l) s s'.
Lemma runs_app : forall a b s s1 s', runs a s s1 -> runs b s1 s' -> runs (a ++ b) s s'.
Proof. intros a b s s1 s' R. induction R; intros R'; [exact R'|]. apply (runs_cons _ _ _ _ _ H). auto. Qed.
Lemma runs_split : forall a b s s', runs (a ++ b) s s' -> exists s1, runs a s s1 /\ runs b s1 s'.
Proof.
  induction a as [|i a IH]; intros b s s' R; [exists s; split; [constructor|exact R]|]. inversion R as [|i' l s0 s1 s2 St R']; subst.
  destruct (IH b s1 s' R') as (s2 & Ra & Rb). exists s2. split; [exact (runs_cons _ _ _ _ _ St Ra)|exact Rb].
Qed.

(** *** Scanning is running over the items *)
Definition plain_in (l : list item) : Prop := forall m x, In (IStatement m) l -> below x m -> is_import x = false.
Definition named_first (n : node) : Prop := forall x, below x n ->
  (node_type x = Some PhNamespaceDefinition -> name_first x) /\ (forall kids, x = Ph PhNamespaceUseGroupClause kids -> own_kind kids = None).
Definition scans (scan : node -> M unit) : Prop := forall n s s', plain_in (items_in d n) -> named_first n -> scan n s = Done tt s' -> runs (items_in d n) s s'.
Lemma plain_l : forall a b, plain_in (a ++ b) -> plain_in a.
Proof. intros a b H m x I. apply H. apply in_or_app. left. exact I. Qed.
Lemma plain_r : forall a b, plain_in (a ++ b) -> plain_in b.
Proof. intros a b H m x I. apply H. apply in_or_app. right. exact I. Qed.
Lemma scans_all : forall scan, scans scan -> forall ks s s', plain_in (flat_map (items_in d) ks) -> (forall k, In k ks -> named_first k) ->
  scanForChildren scan ks s = Done tt s' -> runs (flat_map (items_in d) ks) s s'.
Proof.
  intros scan S. unfold scanForChildren. induction ks as [|k ks IH]; intros s s' Q N E; cbn [forM flat_map] in *; [done E; constructor|].
  step E u s1 F. destruct u. apply (runs_app _ _ s s1 s').
  - exact (S k s s1 (plain_l _ _ Q) (N k (or_introl eq_refl)) F).
  - exact (IH s1 s' (plain_r _ _ Q) (fun k I => N k (or_intror I)) E).
Qed.
Definition block_items (kids : list node) : list item := flat_map (fun k => match k with Ph PhStatementList ks => flat_map (items_in d) ks | _ => [] end) kids.
Definition block_name (start : gostr) (kids : list node) : gostr := match last_of namespace_name kids with Some k => text_or_nothing d k | None => start end.
Lemma last_of_cons : forall (f : node -> bool) k kids, last_of f (k :: kids) = match last_of f kids with Some x => Some x | None => if f k then Some k else None end.
Proof.
  intros f k kids. induction kids as [|c kids IH] using rev_ind.
  - change [k] with ([] ++ [k]). rewrite last_of_snoc. destruct (f k); reflexivity.
  - change (k :: kids ++ [c]) with ((k :: kids) ++ [c]). rewrite !last_of_snoc. destruct (f c); [reflexivity|exact IH].
Qed.
Definition in_namespace_block (scan : node -> M unit) (i : nat) (c : node) : M unit :=
  match c with
  | Ph PhNamespaceName _ => name <- phraseText d c ;; change_table i (fun t => setNamespace t name)
  | Ph PhStatementList ks => scanForChildren scan ks
  | _ => ret tt
  end.
Lemma scans_lists : forall scan, scans scan -> forall i kids s s', plain_in (block_items kids) -> (forall k, In k kids -> named_first k) ->
  (forall k, In k kids -> node_type k <> Some PhNamespaceName) -> forM kids (in_namespace_block scan i) s = Done tt s' -> runs (block_items kids) s s'.
Proof.
  intros scan S i. induction kids as [|k kids IH]; intros s s' Q N NoN E; cbn [forM] in E; [done E; constructor|]. step E u s1 F. destruct u.
  change (block_items (k :: kids)) with ((match k with Ph PhStatementList ks => flat_map (items_in d) ks | _ => [] end) ++ block_items kids) in *.
  apply (runs_app _ _ s s1 s'); [|exact (IH s1 s' (plain_r _ _ Q) (fun x I => N x (or_intror I)) (fun x I => NoN x (or_intror I)) E)].
  apply plain_l in Q. unfold in_namespace_block in F. destruct k as [ty ks|tk|er]; [|done F; constructor|done F; constructor]. destruct ty; try (done F; constructor).
  - apply (scans_all scan S); [exact Q| |exact F]. intros k I x Bx. apply (N _ (or_introl eq_refl)). exact (below_kid x k (Ph PhStatementList ks) I Bx).
  - destruct (NoN _ (or_introl eq_refl) eq_refl).
Qed.
Lemma scans_block : forall scan, scans scan -> forall i kids ns l t s s', plain_in (block_items kids) -> (forall k, In k kids -> named_first k) ->
  (forall before l after k, kids = before ++ Ph PhStatementList l :: after -> In k after -> node_type k <> Some PhNamespaceName) ->
  st_imports s = l ++ [t] -> length l = i -> same_names (imports zero_pos ns []) t ->
  forM kids (in_namespace_block scan i) s = Done tt s' ->
  exists s1 t1, st_imports s1 = l ++ [t1] /\ start t1 = start t /\ same_names (imports zero_pos (block_name ns kids) []) t1 /\ st_out s1 = st_out s /\ runs (block_items kids) s1 s'.
Proof.
  intros scan S i. induction kids as [|k kids IH]; intros ns l t s s' Q N Fi Im Li Sn E; cbn [forM] in E.
  - done E. exists s, t. repeat (split; [auto|]). constructor.
  - step E u s1 F.
    assert (N' : forall x, In x kids -> named_first x) by (intros x I; apply N; right; exact I).
    assert (Fi' : forall before l after x, kids = before ++ Ph PhStatementList l :: after -> In x after -> node_type x <> Some PhNamespaceName).
    { intros before l' after x Ek I. apply (Fi (k :: before) l' after x); [rewrite Ek; reflexivity|exact I]. }
    assert (Skip : s1 = s -> block_items (k :: kids) = block_items kids -> namespace_name k = false ->
      exists s1 t1, st_imports s1 = l ++ [t1] /\ start t1 = start t /\ same_names (imports zero_pos (block_name ns (k :: kids)) []) t1 /\ st_out s1 = st_out s /\ runs (block_items (k :: kids)) s1 s').
    { intros -> Ek Nk. unfold block_name. rewrite last_of_cons, Nk. rewrite Ek in *. destruct (IH ns l t s s' Q N' Fi' Im Li Sn E) as (s1 & t1 & H). exists s1, t1.
      unfold block_name in H. destruct (last_of namespace_name kids); exact H. }
    destruct k as [ty ks|tk|er]; [|done F; apply Skip; reflexivity|done F; apply Skip; reflexivity].
    destruct ty; try (done F; apply Skip; reflexivity; fail).
    + (* statements *)
      cbn [in_namespace_block] in F. destruct u. change (block_items (Ph PhStatementList ks :: kids)) with (flat_map (items_in d) ks ++ block_items kids) in *.
      assert (R1 : runs (flat_map (items_in d) ks) s s1).
      { apply (scans_all scan S); [exact (plain_l _ _ Q)| |exact F]. intros k I x Bx. apply (N _ (or_introl eq_refl)). exact (below_kid x k (Ph PhStatementList ks) I Bx). }
      assert (NoN : forall x, In x kids -> node_type x <> Some PhNamespaceName) by (intros x I; exact (Fi [] ks kids x eq_refl I)).
      assert (R2 : runs (block_items kids) s1 s').
      { exact (scans_lists scan S i kids s1 s' (plain_r _ _ Q) N' NoN E). }
      exists s, t. split; [exact Im|]. split; [reflexivity|]. split; [|split; [reflexivity|exact (runs_app _ _ _ _ _ R1 R2)]].
      unfold block_name. rewrite last_of_cons. cbn [namespace_name]. replace (last_of namespace_name kids) with (@None node); [exact Sn|].
      symmetry. apply (last_of_app namespace_name [] kids). intros x I. specialize (NoN x I). destruct x as [ty l0|t0|e0]; try reflexivity. destruct ty; try reflexivity. destruct (NoN eq_refl).
    + (* the name *)
      step F name s2 F2. apply phraseText_done in F2. destruct F2 as (T & ->). destruct (change_done _ _ _ _ _ F) as (O & Im1). destruct u.
      assert (Im2 : st_imports s1 = l ++ [setNamespace t name]).
      { rewrite Im1, Im, <- Li. pose proof (update_pushed _ l t (fun t => setNamespace t name)) as X. rewrite app_length in X. cbn [length] in X. replace (length l + 1 - 1) with (length l) in X by lia. exact X. }
      change (block_items (Ph PhNamespaceName ks :: kids)) with (block_items kids) in *.
      destruct (IH name l (setNamespace t name) s1 s' Q N' Fi' Im2 Li) as (s3 & t3 & I3 & St3 & Sn3 & O3 & R3); [|exact E|].
      { destruct Sn as (_ & C & Fu & K). split; [reflexivity|]. split; [exact C|split; [exact Fu|exact K]]. }
      exists s3, t3. split; [exact I3|]. split; [exact St3|]. split; [|split; [congruence|exact R3]].
      unfold block_name in *. rewrite last_of_cons. cbn [namespace_name]. destruct (last_of namespace_name kids); [exact Sn3|]. unfold text_or_nothing. rewrite T. exact Sn3.
Qed.
Lemma scan_items : forall fuel, scans (scanNode d fuel).
Proof.
  induction fuel as [|fuel IH]; intros n s s' Q N E; [discriminate E|].
  assert (Plain : items_in d n = [IStatement n] -> runs (items_in d n) s s').
  { intros In. rewrite In in *. apply (runs_cons _ _ s s' s'); [|constructor]. apply (step_statement (S fuel)); [|exact E]. intros x Bx. exact (Q n x (or_introl eq_refl) Bx). }
  destruct n as [ty kids|t|e]; [|apply Plain; reflexivity|apply Plain; reflexivity].
  destruct ty; try (apply Plain; reflexivity).
  - (* use *)
    apply scan_symbol in E; [|reflexivity|reflexivity|discriminate]. cbn [symbol_of] in E. cbn [items_in]. apply (runs_cons _ _ s s' s'); [|constructor]. apply step_uses; [|exact E].
    intros cs ks I I'. apply (N (Ph PhNamespaceUseGroupClause ks)); [|reflexivity]. exact (below_kid _ _ (Ph PhNamespaceUseDeclaration kids) I (below_kid _ _ (Ph PhNamespaceUseGroupClauseList cs) I' (below_here _))).
  - (* namespace *)
    cbn [scanNode node_body] in E. unfold newNamespace, pushImportTable in E. step E i s1 F. step F l s2 F2. injection F2 as <- <-. step F u s3 F2. injection F2 as _ <-. done F.
    step E u1 s4 F. destruct (change_done _ _ _ _ _ F) as (O & Im). cbn [st_imports st_out] in O, Im.
    set (t0 := newImportTable (begins (Ph PhNamespaceDefinition kids))).
    assert (Im4 : st_imports s4 = st_imports s ++ [setNamespace t0 []]).
    { rewrite Im. pose proof (update_pushed _ (st_imports s) t0 (fun t => setNamespace t [])) as X. rewrite app_length in X. cbn [length] in X. replace (length (st_imports s) + 1 - 1) with (length (st_imports s)) in X by lia. exact X. }
    change (items_in d (Ph PhNamespaceDefinition kids)) with (INamespace (Ph PhNamespaceDefinition kids) (block_name [] kids) :: block_items kids) in *.
    destruct (scans_block _ IH (length (st_imports s)) kids [] (st_imports s) (setNamespace t0 []) s4 s') as (s5 & t5 & I5 & St5 & Sn5 & O5 & R5).
    + intros m x I. apply Q. right. exact I.
    + intros k I x Bx. apply N. exact (below_kid x k (Ph PhNamespaceDefinition kids) I Bx).
    + intros before l after k Ek I. exact (proj1 (N _ (below_here _)) eq_refl before l after k Ek I).
    + exact Im4.
    + reflexivity.
    + repeat split.
    + exact E.
    + apply (runs_cons _ _ s s5 s'); [|exact R5]. apply (step_namespace _ _ s s5 t5); [exact I5|exact St5|exact Sn5|congruence].
Qed.
(** the whole file *)
Lemma analyse_items : forall s, analyse d = Done tt s -> imports_outside d ->
  exists s1, runs (items d) initial s1 /\ st_out s = st_out s1 /\ st_imports s = tables_of (st_imports s1).
Proof.
  intros s E (Q & N & Ow). unfold analyse, Load in E. step E u s1 F. destruct u. exists s1. split; [|].
  - apply (scans_all _ (scan_items (height (d_root d)))).
    + exact Q.
    + intros k' I' x Bx. pose proof (below_kid x k' (d_root d) I' Bx) as Br. split; [exact (N x Br)|]. intros kids ->. exact (Ow kids Br).
    + destruct (d_root d) as [ty ks|t|e]; exact F.
  - step E i s2 F2. done E. split; [exact (quiet_currImportTable d _ _ _ F2)|].
    unfold currImportTable in F2. step F2 l s3 F3. injection F3 as <- <-. destruct (st_imports s1) as [|t l] eqn:L.
    + unfold pushImportTable in F2. step F2 l s3 F3. injection F3 as <- <-. step F2 u s3 F3. injection F3 as _ <-. done F2. cbn [st_imports]. rewrite L. reflexivity.
    + done F2. rewrite L. reflexivity.
Qed.

(** *** The tables *)
Lemma statement_calm : forall fresh base b p m s s', without is_import m -> forall fuel, scanNode d fuel m s = Done tt s' -> at_place fresh base b p (st_imports s) ->
  at_place fresh base b p (st_imports s') /\ exists new, st_out s' = st_out s ++ new /\
    forall x k name at_, reads_in d m x -> uses d x k name at_ -> held (is_use d (at_place fresh base b p) k name at_) new.
Proof.
  intros fresh base b p m s s' W fuel E H. set (G := at_place fresh base b p) in *. assert (K : ok G m) by (right; exact W).
  destruct (proj1 (calm_scan d G (place_push fresh base b p) (place_same fresh base b p) fuel m K) s tt s' H E) as (P' & new & O).
  split; [exact P'|]. exists new. split; [exact O|]. intros x k name at_ R U.
  destruct (use_found d G (place_push fresh base b p) (place_same fresh base b p) fuel m x k name at_ R K U s tt s' H E) as (_ & new' & O' & Hd).
  assert (new' = new) as -> by (apply (app_inv_head (st_out s)); congruence). exact Hd.
Qed.
(** the current table stays where it is, takes the imports up to the next
    namespace, and only namespaces add tables *)
Lemma runs_tables : forall l s s', runs l s s' -> forall (fresh : Prop) base b p, (fresh -> no_namespace l) -> at_place fresh base b p (st_imports s) ->
  exists t added, tables_of (st_imports s') = base ++ t :: added /\ start t = b /\ same_names (imports zero_pos (fst p) (snd p ++ uses_ahead l)) t /\
    Forall decl_ok (snd p ++ uses_ahead l) /\
    (forall t', In t' added -> exists n name, In (INamespace n name) l /\ start t' = begins n).
Proof.
  intros l s s' R. induction R as [s|i l s s1 s' St R IH]; intros fresh base b p NE H.
  - destruct H as (D & _ & t & E & Sb & Sn). exists t, []. cbn [uses_ahead]. rewrite app_nil_r. split; [exact E|]. split; [exact Sb|split; [exact Sn|split; [exact D|]]]. intros t' [].
  - assert (NE1 : fresh -> no_namespace l) by (intros X n name I; exact (NE X n name (or_intror I))).
    assert (Keep : at_place fresh base b (behind p i) (st_imports s1) -> snd (behind p i) ++ uses_ahead l = snd p ++ uses_ahead (i :: l) -> fst (behind p i) = fst p ->
      exists t added, tables_of (st_imports s') = base ++ t :: added /\ start t = b /\ same_names (imports zero_pos (fst p) (snd p ++ uses_ahead (i :: l))) t /\
        Forall decl_ok (snd p ++ uses_ahead (i :: l)) /\ (forall t', In t' added -> exists n name, In (INamespace n name) (i :: l) /\ start t' = begins n)).
    { intros H1 Eu En. destruct (IH fresh base b (behind p i) NE1 H1) as (t & added & E & Sb & Sn & D & A). exists t, added. rewrite Eu in Sn, D. rewrite En in Sn.
      split; [exact E|split; [exact Sb|split; [exact Sn|split; [exact D|]]]]. intros t' I. destruct (A t' I) as (n & name & I' & S'). exists n, name. split; [right; exact I'|exact S']. }
    inversion St as [n name s0 s2 t Im Stt Sn O|kids s0 s2 Gp E|fuel n s0 s2 W E]; subst.
    + destruct H as (D & Fr & t0 & E0 & Sb & Sn0).
      assert (Es : st_imports s = base ++ [t0]) by (destruct (st_imports s); [destruct (NE (Fr eq_refl) n name (or_introl eq_refl))|exact E0]).
      cbn [uses_ahead]. rewrite app_nil_r. rewrite Es in Im.
      destruct (IH False (base ++ [t0]) (begins n) (name, [])) as (t1 & added & E1 & Sb1 & _ & _ & A1); [intros []| |].
      * split; [constructor|]. rewrite Im. split; [intros X; destruct base; discriminate X|]. exists t. split; [destruct base; reflexivity|]. split; [exact Stt|exact Sn].
      * exists t0, (t1 :: added). rewrite E1, <- app_assoc. split; [reflexivity|split; [exact Sb|split; [exact Sn0|split; [exact D|]]]].
        intros t' [<-|I]; [exists n, name; split; [left; reflexivity|exact Sb1]|]. destruct (A1 t' I) as (n' & name' & I' & S'). exists n', name'. split; [right; exact I'|exact S'].
    + destruct (use_placed fresh base b kids p s s1 Gp H E) as (H1 & _). apply Keep; [exact H1| |reflexivity].
      cbn [behind snd uses_ahead]. rewrite app_assoc. reflexivity.
    + destruct (statement_calm fresh base b p n s s1 W fuel E H) as (H1 & _). apply Keep; [exact H1|reflexivity|reflexivity].
Qed.
(** where the scan of the file is after its first items; [P]: what the starts of
    all tables up to the current one have in common *)
Lemma runs_place : forall (P : position -> Prop) l s s', runs l s s' -> forall (fresh : Prop) base b p, at_place fresh base b p (st_imports s) ->
  (forall t, In t base -> P (start t)) -> P b -> (forall n name, In (INamespace n name) l -> P (begins n)) ->
  exists (fresh' : Prop) base' b', at_place fresh' base' b' (fold_left behind l p) (st_imports s') /\ (fresh' -> fresh /\ no_namespace l) /\
    (forall t, In t base' -> P (start t)) /\ P b'.
Proof.
  intros P l s s' R. induction R as [s|i l s s1 s' St R IH]; intros fresh base b p H Pb Pt Pl.
  - exists fresh, base, b. split; [exact H|]. split; [intros X; split; [exact X|intros n name []]|auto].
  - assert (Pl' : forall n name, In (INamespace n name) l -> P (begins n)) by (intros n name I; exact (Pl n name (or_intror I))).
    assert (Keep : at_place fresh base b (behind p i) (st_imports s1) -> (forall n name, i <> INamespace n name) ->
      exists (fresh' : Prop) base' b', at_place fresh' base' b' (fold_left behind (i :: l) p) (st_imports s') /\ (fresh' -> fresh /\ no_namespace (i :: l)) /\
        (forall t, In t base' -> P (start t)) /\ P b').
    { intros H1 Ni. destruct (IH fresh base b (behind p i) H1 Pb Pt Pl') as (fresh' & base' & b' & H2 & F2 & P2). exists fresh', base', b'.
      split; [exact H2|]. split; [|exact P2]. intros X. destruct (F2 X) as (F3 & F4). split; [exact F3|]. intros n name [I|I]; [exact (Ni n name I)|exact (F4 n name I)]. }
    inversion St as [n name s0 s2 t Im Stt Sn O|kids s0 s2 Gp E|fuel n s0 s2 W E]; subst.
    + destruct H as (D & Fr & t0 & E0 & Sb & Sn0). destruct (IH False (st_imports s) (begins n) (name, [])) as (fresh' & base' & b' & H2 & F2 & P2).
      * split; [constructor|]. rewrite Im. split; [intros X; destruct (st_imports s); discriminate X|]. exists t. split; [destruct (st_imports s); reflexivity|]. split; [exact Stt|exact Sn].
      * intros t' I. destruct (st_imports s) as [|x ts]; [destruct I|]. cbn [tables_of] in E0. rewrite E0 in I. apply in_app_or in I. destruct I as [I|[<-|[]]]; [exact (Pb t' I)|rewrite Sb; exact Pt].
      * exact (Pl n name (or_introl eq_refl)).
      * exact Pl'.
      * exists fresh', base', b'. split; [exact H2|]. split; [|exact P2]. intros X. destruct (F2 X) as ([] & _).
    + destruct (use_placed fresh base b kids p s s1 Gp H E) as (H1 & _). apply Keep; [exact H1|discriminate].
    + destruct (statement_calm fresh base b p n s s1 W fuel E H) as (H1 & _). apply Keep; [exact H1|discriminate].
Qed.
Lemma place_initial : at_place True [] (root_pos d) ([], []) (st_imports initial).
Proof. split; [constructor|]. split; [auto|]. exists (newImportTable (root_pos d)). repeat split. Qed.

(** *** The class of a name *)
Lemma same_resolution : forall a b t, same_names a b -> fst (GetClassReferenceFQN b t) = fst (GetClassReferenceFQN a t).
Proof.
  intros a b t (N & C & _). unfold GetClassReferenceFQN. destruct (GetFirstAndRestParts t) as (f, r). specialize (C f). unfold names_of in C.
  destruct (am_get (classes b) f), (am_get (classes a) f); cbn in C; try discriminate C; cbn [fst]; [injection C as ->; reflexivity|rewrite N; reflexivity].
Qed.
Lemma resolves : forall fresh base b p x t pn declared, resolved (at_place fresh base b p) x t -> x = text pn ->
  valid pn -> ~ builtin (text pn) -> spelled_alike (snd p) (first pn) -> not_shadowed ImportModel.UseClass (snd p) pn ->
  ts_fqn t = php_resolve ImportModel.UseClass declared (snd p) (fst p) pn.
Proof.
  intros fresh base b p x t pn declared (l & tb & t0 & H & N & T & ->) -> V Nb Sp Ns. destruct (place_last fresh base b p l tb H N) as (_ & _ & S). destruct H as (D & _). rewrite (same_resolution _ _ _ S).
  destruct (class_names zero_pos (fst p) (snd p) pn declared D V Nb Sp Ns) as (t1 & T1 & R1). assert (t1 = t0) as -> by congruence. rewrite R1. destruct t0; reflexivity.
Qed.
Lemma runs_out : forall l s s', runs l s s' -> exists new, st_out s' = st_out s ++ new.
Proof.
  intros l s s' R. induction R as [s|i l s s1 s' St R IH]; [exists []; rewrite app_nil_r; reflexivity|]. destruct IH as (new & O1).
  assert (X : exists n0, st_out s1 = st_out s ++ n0).
  { inversion St as [n name s0 s2 t Im Stt Sn O|kids s0 s2 Gp E|fuel n s0 s2 W E]; subst.
    - exists []. rewrite app_nil_r. exact O.
    - destruct (calm_use d (fun _ => True) (fun _ => I) (fun _ => I) kids s tt s1 I E) as (_ & n0 & O). exists n0. exact O.
    - assert (K : ok (fun _ => True) n) by (right; exact W). destruct (proj1 (calm_scan d (fun _ => True) (fun _ => I) (fun _ _ _ _ _ _ => I) fuel n K) s tt s1 I E) as (_ & n0 & O). exists n0. exact O. }
  destruct X as (n0 & O0). exists (n0 ++ new). rewrite O1, O0, app_assoc. reflexivity.
Qed.
(** the scan when it comes to a statement, and when it is through *)
Lemma at_statement : forall s before m after, analyse d = Done tt s -> imports_outside d -> items d = before ++ IStatement m :: after ->
  exists s1 s2 s3 fuel, runs before initial s1 /\ without is_import m /\ scanNode d fuel m s1 = Done tt s2 /\ runs after s2 s3 /\ st_out s = st_out s3 /\ st_imports s = tables_of (st_imports s3).
Proof.
  intros s before m after E Out It. destruct (analyse_items s E Out) as (s3 & R & O & Im). rewrite It in R. destruct (runs_split _ _ _ _ R) as (s1 & R1 & R2).
  inversion R2 as [|i l s0 s2 s4 St R3]; subst. inversion St as [ | |fuel n s0 s5 W F]; subst. exists s1, s2, s3, fuel. auto 7.
Qed.
(** the symbol of the use of a class *)
Lemma class_symbol_of_use : forall s p m n k name at_ pn declared, analyse d = Done tt s -> imports_outside d ->
  stands d p m -> reads_in d m n -> uses d n k name at_ -> names_class k name at_ ->
  named d at_ (text pn) -> valid pn -> ~ builtin (text pn) -> spelled_alike (snd p) (first pn) -> not_shadowed ImportModel.UseClass (snd p) pn ->
  exists a t, In a (flat_map symbols_in (st_out s)) /\ a_kind a = k /\ ts_original (a_name a) = name /\ sits_at d at_ a /\ a_types a = [t] /\
    ts_fqn t = php_resolve ImportModel.UseClass declared (snd p) (fst p) pn.
Proof.
  intros s p m n k name at_ pn declared E Out (before & after & It & ->) R U Nc Nm V Nb Sp Ns.
  destruct (at_statement s before m after E Out It) as (s1 & s2 & s3 & fuel & R1 & W & F & R2 & O & _).
  destruct (runs_place (fun _ => True) before initial s1 R1 True [] (root_pos d) ([], []) place_initial) as (fresh & base & b & H & _); auto.
  destruct (statement_calm fresh base b _ m s1 s2 W fuel F H) as (_ & new & O2 & Fd). destruct (Fd n k name at_ R U) as (a & Ia & Ka & Na & Sa & Ct).
  assert (One : one_class d (at_place fresh base b (fold_left behind before ([], []))) at_ a).
  { unfold class_types in Ct. destruct k; try destruct Nc as (? & ? & ?); try destruct Nc; try exact Ct. apply Ct; assumption. }
  destruct One as (x & t & Nx & Rt & Ty). unfold named in Nx, Nm. assert (Xe : x = text pn) by congruence.
  exists a, t. split; [|split; [exact Ka|split; [exact Na|split; [exact Sa|split; [exact Ty|exact (resolves fresh base b _ x t pn declared Rt Xe V Nb Sp Ns)]]]]].
  destruct (runs_out _ _ _ R2) as (new2 & O3). rewrite O, O3, O2, !flat_map_app. apply in_or_app. left. apply in_or_app. right. exact Ia.
Qed.
Theorem class_uses : forall s p m n k name at_ pn declared, analyse d = Done tt s -> imports_outside d ->
  stands d p m -> reads_in d m n -> uses d n k name at_ -> names_class k name at_ ->
  named d at_ (text pn) -> valid pn -> ~ builtin (text pn) -> spelled_alike (snd p) (first pn) -> not_shadowed ImportModel.UseClass (snd p) pn ->
  class_reported d k at_ (php_resolve ImportModel.UseClass declared (snd p) (fst p) pn) (st_out s).
Proof.
  intros s p m n k name at_ pn declared E Out St R U Nc Nm V Nb Sp Ns.
  destruct (class_symbol_of_use s p m n k name at_ pn declared E Out St R U Nc Nm V Nb Sp Ns) as (a & t & Ia & Ka & _ & Sa & Ty & Ft). exists a, t. auto 7.
Qed.
Lemma reads_in_trans : forall a b c, reads_in d a b -> reads_in d b c -> reads_in d a c.
Proof. intros a b c Ra Rb. induction Rb as [|n x Rb IH Rx]; [exact Ra|]. exact (reads_more d a n x IH Rx). Qed.
(** a statement of the file is read *)
Lemma item_read : forall m, In (IStatement m) (items d) -> is_read d m.
Proof.
  intros m I. unfold items in I. apply in_flat_map in I as (k & Ik & I). exists k. split; [exact Ik|]. clear Ik.
  enough (G : forall h k, height k <= h -> In (IStatement m) (items_in d k) -> reads_in d k m) by exact (G _ k (le_n _) I). clear k I.
  induction h as [|h IH]; intros k L I; [pose proof (height_pos k); lia|].
  destruct k as [ty kids|t|e]; [|destruct I as [X|[]]; injection X as <-; constructor|destruct I as [X|[]]; injection X as <-; constructor].
  destruct ty; try (destruct I as [X|[]]; injection X as <-; constructor); try (destruct I as [X|[]]; discriminate X).
  cbn [items_in] in I. destruct I as [X|I]; [discriminate X|]. apply in_flat_map in I as (x & Ix & I). destruct x as [ty ks|t|e]; try (destruct I; fail). destruct ty; try (destruct I; fail).
  apply in_flat_map in I as (c & Ic & I). apply (reads_in_trans _ c).
  - eapply reads_more; [apply reads_it|]. exact (reads_body d PhNamespaceDefinition PhStatementList kids ks c eq_refl Ix Ic).
  - apply IH; [|exact I]. pose proof (kid_height PhNamespaceDefinition kids _ Ix). pose proof (kid_height PhStatementList ks _ Ic). lia.
Qed.
(** the symbol of a function call *)
Lemma call_symbol : forall s m n name at_, analyse d = Done tt s -> In (IStatement m) (items d) -> reads_in d m n -> uses d n AFunctionCall name at_ ->
  exists a, In a (flat_map symbols_in (st_out s)) /\ a_kind a = AFunctionCall /\ ts_original (a_name a) = name /\ sits_at d at_ a.
Proof.
  intros s m n name at_ E I R U. apply (uses_reported TX TR d s n AFunctionCall name at_ E); [|exact U].
  destruct (item_read m I) as (k & Ik & Rk). exists k. split; [exact Ik|exact (reads_in_trans _ _ _ Rk R)].
Qed.

(** *** The table that is looked up by position *)
Lemma table_found : forall base t added pos, (base <> [] -> forall x, In x (base ++ [t]) -> (0 < ComparePos pos (start x))%Z) ->
  (forall x, In x added -> (ComparePos pos (start x) <= 0)%Z) -> ImportTableAtPos (base ++ t :: added) pos = Some t.
Proof.
  intros base t added pos Hb Ha. unfold ImportTableAtPos. set (l := base ++ t :: added). set (f := fun i => match nth_error l i with Some t => (ComparePos pos (start t) <=? 0)%Z | None => false end).
  assert (At : nth_error l (length base) = Some t) by (unfold l; rewrite nth_error_app2, Nat.sub_diag by lia; reflexivity).
  assert (Up : forall i, length base < i -> i < length l -> f i = true).
  { intros i L1 L2. unfold f. destruct (nth_error l i) as [x|] eqn:N; [|apply nth_error_None in N; lia]. apply Z.leb_le. apply Ha. unfold l in N. rewrite nth_error_app2 in N by lia.
    replace (i - length base) with (S (i - length base - 1)) in N by lia. cbn [nth_error] in N. exact (nth_error_In _ _ N). }
  assert (Down : base <> [] -> forall i, i <= length base -> f i = false).
  { intros Nb i L. unfold f. destruct (nth_error l i) as [x|] eqn:N; [|reflexivity]. apply Z.leb_gt. apply (Hb Nb).
    destruct (Nat.eq_dec i (length base)) as [->|Ne]; [|apply in_or_app; left; unfold l in N; rewrite nth_error_app1 in N by lia; exact (nth_error_In _ _ N)].
    rewrite At in N. injection N as ->. apply in_or_app. right. left. reflexivity. }
  assert (Ll : length l = length base + S (length added)) by (unfold l; rewrite app_length; reflexivity).
  destruct base as [|b0 base'].
  - (* the first table *)
    destruct (sort_search_spec (length l) f) as (Le & Lo & Hi).
    { intros a b Lab Lb Fa. destruct (Nat.eq_dec a b) as [->|Ne]; [exact Fa|]. apply Up; [cbn; lia|exact Lb]. }
    assert (Si : sort_search (length l) f = 0 \/ sort_search (length l) f = 1).
    { destruct (sort_search (length l) f) as [|[|k]] eqn:Sk; auto. assert (X : f 1 = false) by (apply Lo; lia). rewrite (Up 1) in X by (cbn in *; lia). discriminate X. }
    destruct Si as [-> | ->]; exact At.
  - assert (Nb : b0 :: base' <> []) by discriminate. specialize (Down Nb). set (base := b0 :: base') in *.
    destruct (sort_search_spec (length l) f) as (Le & Lo & Hi).
    { intros a b Lab Lb Fa. apply Up; [|exact Lb]. destruct (le_lt_dec a (length base)) as [L|L]; [rewrite (Down a L) in Fa; discriminate Fa|lia]. }
    assert (Si : sort_search (length l) f = S (length base)).
    { destruct (Nat.lt_trichotomy (sort_search (length l) f) (S (length base))) as [L|[L|L]]; [|exact L|].
      - assert (X : f (sort_search (length l) f) = true) by (apply Hi; lia). rewrite Down in X by lia. discriminate X.
      - assert (X : f (S (length base)) = false) by (apply Lo; exact L). rewrite Up in X by lia. discriminate X. }
    rewrite Si. cbn [Nat.eqb]. replace (S (length base) - 1) with (length base) by lia. exact At.
Qed.
Theorem table_at : forall s before m after pos, analyse d = Done tt s -> imports_outside d -> items d = before ++ IStatement m :: after ->
  ~ no_namespace before \/ no_namespace after -> in_order d before pos after ->
  let p := fold_left behind before ([], []) in
  Forall decl_ok (snd p ++ uses_ahead after) /\
  exists t, ImportTableAtPos (st_imports s) pos = Some t /\ same_names (imports zero_pos (fst p) (snd p ++ uses_ahead after)) t.
Proof.
  intros s before m after pos E Out It Ns (Ob & Oa) p.
  destruct (at_statement s before m after E Out It) as (s1 & s2 & s3 & fuel & R1 & W & F & R2 & O & Im).
  destruct (runs_place (fun b => (0 < ComparePos pos b)%Z) before initial s1 R1 True [] (root_pos d) ([], []) place_initial) as (fresh & base & b & H & Fr & Pb & Pt).
  { intros t []. }
  { apply Ob. left. reflexivity. }
  { intros n name I. apply Ob. right. exists name. exact I. }
  destruct (statement_calm fresh base b _ m s1 s2 W fuel F H) as (H2 & _). fold p in H2.
  destruct (runs_tables after s2 s3 R2 fresh base b p) as (t & added & Ta & St & Sn & D & A); [|exact H2|].
  { intros X. destruct (Fr X) as (_ & N0). destruct Ns as [Ns|Ns]; [destruct (Ns N0)|exact Ns]. }
  split; [exact D|]. exists t. split; [|exact Sn]. rewrite Im, Ta. apply table_found.
  - intros _ x I. apply in_app_or in I. destruct I as [I|[<-|[]]]; [exact (Pb x I)|rewrite St; exact Pt].
  - intros x I. destruct (A x I) as (n & name & I' & ->). exact (Oa n name I').
Qed.
End Placed.
