(** Claims about imports and name resolution. *)
From Coq Require Import String.
From Coq Require Import List Bool ZArith Lia Permutation.
From Coq.Strings Require Import Byte.
From Verif Require Import Base.Bytes Base.BytesProofs Base.Protocol Symbols.Symbols Symbols.KeysModel Types.TypesModel Types.TypesProofs
  Types.ImportModel Types.ImportSpec Types.ImportProofs Store.SearchProofs Store.SearchSpec.
Import ListNotations.
Open Scope list_scope.

(** ** C32 name resolution *)
Theorem C32_class_names_partial : forall pos ns uses n declared,
  Forall decl_ok uses -> valid n -> ~ builtin (text n) -> spelled_alike uses (first n) -> not_shadowed UseClass uses n ->
  exists t, NewTypeString (text n) = Some t
    /\ fst (GetClassReferenceFQN (imports pos ns uses) t) = php_resolve UseClass declared uses ns n.
Proof.
  intros pos ns uses n declared D V NB S NS. exists (TS (text n) (text n) 0). split; [now apply valid_type|].
  unfold GetClassReferenceFQN. rewrite valid_split by assumption. rewrite table_classes, imports_get by assumption. rewrite exact_php by assumption.
  unfold php_resolve. unfold not_shadowed in NS. destruct (absolute n) eqn:A.
  - assert (E : php_bound uses UseClass (first n) = None) by (specialize (NS eq_refl); destruct (rest n); exact NS).
    rewrite E. cbn [option_map fst]. rewrite placed by assumption. rewrite A. reflexivity.
  - destruct (php_bound uses UseClass (first n)) as [u|] eqn:E; cbn [option_map fst item_of it_name].
    + destruct (rest n); reflexivity.
    + rewrite placed, A, imports_namespace by assumption. destruct (rest n); reflexivity.
Qed.
Print Assumptions C32_class_names_partial.

Lemma alias_table : forall i n, (match rest n with [] => functions i | _ => classes i end) = table_of i (match rest n with [] => UseFunction | _ => UseClass end).
Proof. intros i n. destruct (rest n); reflexivity. Qed.
Lemma alias_table_const : forall i n, (match rest n with [] => constants i | _ => classes i end) = table_of i (match rest n with [] => UseConst | _ => UseClass end).
Proof. intros i n. destruct (rest n); reflexivity. Qed.

(** what functions and constants have in common *)
Lemma function_like : forall k uses n declared ns, k <> UseClass -> valid n -> ~ builtin (text n) -> not_shadowed k uses n ->
  unambiguous declared ns n -> (rest n <> [] -> php_bound uses UseClass (first n) = None) ->
  match php_bound uses (match rest n with [] => k | _ => UseClass end) (first n) with
  | Some u => BSL :: u_name u
  | None => let fqn := if IsFQN (text n) then text n else BSL :: text n in
            if declared fqn then fqn else ts_fqn (SetNamespace (TS (text n) (text n) 0) ns)
  end = php_resolve k declared uses ns n.
Proof.
  intros k uses n declared ns NK V NB NS U Q. unfold php_resolve, not_shadowed, unambiguous in *. rewrite valid_fqn, placed by assumption.
  destruct (absolute n) eqn:A.
  - rewrite NS by reflexivity. destruct (declared (text n)); reflexivity.
  - assert (G : BSL :: text n = in_namespace [] n) by (unfold text; rewrite A; reflexivity). cbv zeta. rewrite G.
    destruct (rest n) as [|r rs] eqn:R.
    + assert (F : BSL :: first n = in_namespace [] n) by (unfold in_namespace, relative_text; rewrite R; reflexivity).
      destruct (php_bound uses k (first n)); [reflexivity|]. destruct U as [->|U].
      * destruct k; [congruence| |]; rewrite F; destruct (declared _); reflexivity.
      * rewrite U. destruct k; [congruence| |]; rewrite F; destruct (declared (in_namespace ns n)); reflexivity.
    + rewrite Q by discriminate. destruct U as [->|U]; [destruct (declared _); reflexivity|]. rewrite U. reflexivity.
Qed.

Theorem C32_function_names_partial : forall pos ns uses n declared,
  Forall decl_ok uses -> valid n -> ~ builtin (text n) -> spelled_alike uses (first n) -> not_shadowed UseFunction uses n ->
  unambiguous declared ns n -> (rest n <> [] -> php_bound uses UseClass (first n) = None) ->
  exists t, NewTypeString (text n) = Some t
    /\ GetFunctionReferenceFQN declared (imports pos ns uses) t = php_resolve UseFunction declared uses ns n.
Proof.
  intros pos ns uses n declared D V NB S NS U Q. exists (TS (text n) (text n) 0). split; [now apply valid_type|].
  unfold GetFunctionReferenceFQN. rewrite valid_split by assumption. rewrite alias_table, imports_get by assumption. rewrite exact_php, imports_namespace by assumption.
  cbn [ts_fqn]. rewrite <- (function_like UseFunction uses n declared ns) by (assumption || discriminate).
  destruct (php_bound uses (match rest n with [] => UseFunction | _ => UseClass end) (first n)); reflexivity.
Qed.
Print Assumptions C32_function_names_partial.

Theorem C32_constant_names_partial : forall pos ns uses n is_const is_define,
  let declared f := is_const f || is_define f in
  Forall decl_ok uses -> valid n -> ~ builtin (text n) -> spelled_alike uses (first n) -> not_shadowed UseConst uses n ->
  unambiguous declared ns n -> (rest n <> [] -> php_bound uses UseClass (first n) = None) ->
  exists t, NewTypeString (text n) = Some t
    /\ GetConstReferenceFQN is_const is_define (imports pos ns uses) t = php_resolve UseConst declared uses ns n.
Proof.
  intros pos ns uses n is_const is_define declared D V NB S NS U Q. exists (TS (text n) (text n) 0). split; [now apply valid_type|].
  unfold GetConstReferenceFQN. rewrite valid_split by assumption. rewrite alias_table_const, imports_get by assumption. rewrite exact_php, imports_namespace by assumption.
  cbn [ts_fqn]. rewrite <- (function_like UseConst uses n declared ns) by (assumption || discriminate).
  destruct (php_bound uses (match rest n with [] => UseConst | _ => UseClass end) (first n)); [reflexivity|]. cbn [option_map]. unfold declared. cbv zeta. destruct (is_const _); [reflexivity|]. destruct (is_define _); reflexivity.
Qed.
Print Assumptions C32_constant_names_partial.

(** For functions, the names under which references are recorded always include
    the one PHP chooses, whatever is declared. *)
Theorem C32_possible_function_names_partial : forall pos ns uses n declared,
  Forall decl_ok uses -> valid n -> ~ builtin (text n) -> spelled_alike uses (first n) -> not_shadowed UseFunction uses n ->
  (rest n <> [] -> php_bound uses UseClass (first n) = None) ->
  exists t, NewTypeString (text n) = Some t
    /\ In (php_resolve UseFunction declared uses ns n) (FunctionPossibleFQNs (imports pos ns uses) t).
Proof.
  intros pos ns uses n declared D V NB S NS Q. exists (TS (text n) (text n) 0). split; [now apply valid_type|].
  unfold FunctionPossibleFQNs. rewrite valid_split by assumption. rewrite alias_table, imports_get by assumption. rewrite exact_php, imports_namespace by assumption.
  cbn [ts_fqn]. rewrite placed, valid_fqn by assumption. unfold php_resolve, not_shadowed in *. destruct (absolute n) eqn:A.
  - rewrite NS by reflexivity. left. reflexivity.
  - assert (G : BSL :: text n = in_namespace [] n) by (unfold text; rewrite A; reflexivity). rewrite G.
    assert (P : In (in_namespace ns n) (in_namespace [] n :: (if str_eqb (in_namespace ns n) (in_namespace [] n) then [] else [in_namespace ns n]))).
    { destruct (str_eqb_spec (in_namespace ns n) (in_namespace [] n)) as [->|_]; [left; reflexivity|right; left; reflexivity]. }
    destruct (rest n) as [|r rs] eqn:R.
    + destruct (php_bound uses UseFunction (first n)); [left; reflexivity|]. cbn [option_map].
      destruct (declared (in_namespace ns n)); [exact P|]. left. unfold in_namespace, relative_text. rewrite R. reflexivity.
    + rewrite Q by discriminate. exact P.
Qed.
Print Assumptions C32_possible_function_names_partial.

(** Where phpintel departs from PHP *)
Definition use_of k name := Use k name None zero_range.

Theorem C32_fully_qualified_refuted : exists uses n t,
  Forall decl_ok uses /\ valid n /\ absolute n = true /\ NewTypeString (text n) = Some t
  /\ fst (GetClassReferenceFQN (imports zero_pos (B "App") uses) t) <> text n.
Proof.
  exists [use_of UseClass (B "Lib\Shop")], (Name true (B "Shop") []). eexists.
  split; [repeat constructor; discriminate|]. split; [split; [|intros ? []]|].
  { split; [discriminate|]. split; intros I; cbn in I; intuition; discriminate. }
  split; [reflexivity|]. split; [vm_compute; reflexivity|]. vm_compute. discriminate.
Qed.
Print Assumptions C32_fully_qualified_refuted.

Theorem C32_case_refuted : exists uses n t declared,
  Forall decl_ok uses /\ NewTypeString (text n) = Some t
  /\ fst (GetClassReferenceFQN (imports zero_pos (B "App") uses) t) <> php_resolve UseClass declared uses (B "App") n.
Proof.
  exists [use_of UseClass (B "Lib\Shop")], (Name false (B "shop") []). eexists. exists (fun _ => true).
  split; [repeat constructor; discriminate|]. split; [vm_compute; reflexivity|]. vm_compute. discriminate.
Qed.
Print Assumptions C32_case_refuted.

(** a function called through an imported namespace *)
Theorem C32_qualified_function_refuted : exists uses n t declared,
  Forall decl_ok uses /\ NewTypeString (text n) = Some t
  /\ GetFunctionReferenceFQN declared (imports zero_pos (B "App") uses) t = B "\Lib\Shop"
  /\ php_resolve UseFunction declared uses (B "App") n = B "\Lib\Shop\total".
Proof.
  exists [use_of UseClass (B "Lib\Shop")], (Name false (B "Shop") [B "total"]). eexists. exists (fun _ => true).
  split; [repeat constructor; discriminate|]. split; [vm_compute; reflexivity|]. split; vm_compute; reflexivity.
Qed.
Print Assumptions C32_qualified_function_refuted.

(** a namespaced function hidden by a global one *)
Theorem C32_global_function_refuted : exists n t declared,
  NewTypeString (text n) = Some t
  /\ GetFunctionReferenceFQN declared (imports zero_pos (B "App") []) t = B "\strlen"
  /\ php_resolve UseFunction declared [] (B "App") n = B "\App\strlen".
Proof.
  exists (Name false (B "strlen") []). eexists. exists (fun _ => true). split; [vm_compute; reflexivity|]. split; vm_compute; reflexivity.
Qed.
Print Assumptions C32_global_function_refuted.

Lemma identifier_dec : forall p, (match p with [] => false | _ => negb (contains_byte p BSL) && negb (contains_byte p x5d) end) = true -> identifier p.
Proof.
  intros p H. destruct p as [|b p]; [discriminate|]. apply andb_true_iff in H as [H1 H2]. split; [discriminate|].
  split; intros I.
  - apply negb_true_iff in H1. unfold contains_byte in H1.
    assert (K : existsb (fun x => byte_eqb x BSL) (b :: p) = true) by (apply existsb_exists; eexists; split; [exact I|apply byte_eqb_refl]). congruence.
  - apply negb_true_iff in H2. unfold contains_byte in H2.
    assert (K : existsb (fun x => byte_eqb x x5d) (b :: p) = true) by (apply existsb_exists; eexists; split; [exact I|apply byte_eqb_refl]). congruence.
Qed.

Example C32_hypotheses_met : let uses := [use_of UseClass (B "Lib\Shop"); Use UseFunction (B "Lib\total") (Some (B "sum")) zero_range] in
  let n := Name false (B "Shop") [B "Cart"] in
  Forall decl_ok uses /\ valid n /\ ~ builtin (text n) /\ spelled_alike uses (first n) /\ not_shadowed UseClass uses n
  /\ php_resolve UseClass (fun _ => true) uses (B "App") n = B "\Lib\Shop\Cart"
  /\ php_resolve UseFunction (fun f => str_eqb f (B "\App\run")) uses (B "App") (Name false (B "sum") []) = B "\Lib\total"
  /\ unambiguous (fun f => str_eqb f (B "\App\run")) (B "App") (Name false (B "run") []).
Proof.
  cbv zeta. split; [repeat constructor; discriminate|]. split; [split; [apply identifier_dec; reflexivity|intros p [<-|[]]; apply identifier_dec; reflexivity]|].
  split; [intros H; apply existsb_in in H; vm_compute in H; discriminate|]. split; [|split; [|split; [|split]]].
  - intros u [<-|[<-|[]]] H; vm_compute in H |- *; congruence.
  - intros H. discriminate H.
  - vm_compute. reflexivity.
  - vm_compute. reflexivity.
  - right. vm_compute. reflexivity.
Qed.

(** ** C54 inserted use statements *)
Lemma join_app_last : forall space short, join (space ++ [short]) [BSL] = match space with [] => short | _ => join space [BSL] ++ BSL :: short end.
Proof.
  induction space as [|p space IH]; intros short; [reflexivity|]. destruct space as [|q space]; [reflexivity|].
  change ((p :: q :: space) ++ [short]) with (p :: (q :: space) ++ [short]). change ((q :: space) ++ [short]) with (q :: space ++ [short]) at 1.
  rewrite join_cons. change (q :: space ++ [short]) with ((q :: space) ++ [short]). rewrite IH, join_cons, <- app_assoc. reflexivity.
Qed.

Lemma join_identifiers_nil : forall space, (forall p, In p space -> identifier p) -> join space [BSL] = [] -> space = [].
Proof.
  intros [|p [|q ps]] H E; [reflexivity| |].
  - destruct (H p (or_introl eq_refl)) as (NE & _). cbn in E. congruence.
  - rewrite join_cons in E. destruct p; discriminate.
Qed.

(** the namespace of a name built from a namespace text and a short name *)
Lemma namespace_of : forall ns short o, ~ In BSL short ->
  ts_GetNamespace (TS (match ns with [] => BSL :: short | _ => BSL :: ns ++ BSL :: short end) o 0) = BSL :: ns.
Proof.
  intros ns short o N. unfold ts_GetNamespace. cbn [ts_fqn]. destruct ns as [|b ns].
  - change (BSL :: short) with ([] ++ BSL :: short). rewrite last_index_byte_app by assumption. reflexivity.
  - change (BSL :: (b :: ns) ++ BSL :: short) with ((BSL :: b :: ns) ++ BSL :: short). rewrite last_index_byte_app by assumption.
    cbn [length]. change ((BSL :: b :: ns) ++ BSL :: short) with ((BSL :: (b :: ns) ++ BSL :: short)) at 1.
    replace (S (S (length ns))) with (length (BSL :: b :: ns)) by reflexivity. 
    change (BSL :: (b :: ns) ++ BSL :: short) with ((BSL :: b :: ns) ++ BSL :: short). rewrite firstn_app, firstn_all, Nat.sub_diag, app_nil_r. reflexivity.
Qed.

Lemma exact_in : forall uses k a u, exact_bound uses k a = Some u -> In u uses /\ u_kind u = k /\ bound_name u = a.
Proof.
  intros uses k a u E. unfold exact_bound in E. apply find_some in E as [I E]. apply in_rev in I. apply andb_true_iff in E as [E1 E2].
  apply same_kind_eq in E1. apply str_eqb_eq in E2. auto.
Qed.

Lemma php_bound_new : forall uses k name short r, last (split_byte name BSL) [] = short ->
  php_bound (uses ++ [Use k name None r]) k short = Some (Use k name None r).
Proof.
  intros uses k name short r E. unfold php_bound. rewrite rev_app_distr. cbn [rev app find]. cbn [u_kind bound_name u_alias u_name]. rewrite E.
  assert (K : same_kind k k = true) by (destruct k; reflexivity). rewrite K. assert (N : same_name k short short = true) by (destruct k; apply str_eqb_refl).
  rewrite N. reflexivity.
Qed.

Lemma imports_nodup : forall pos ns uses, tables_nodup (imports pos ns uses).
Proof.
  intros pos ns uses. unfold imports. assert (H : tables_nodup (setNamespace (newImportTable pos) ns)) by (intros []; constructor).
  revert H. generalize (setNamespace (newImportTable pos) ns). induction uses as [|u uses IH]; intros i H; [exact H|]. cbn [fold_left]. apply IH. now apply add_use_nodup.
Qed.

(** Completing an unqualified word by a class, function or constant declared in
    namespace [space]: either nothing is inserted and the label already means
    the symbol, or one use statement is inserted, at the insertion point, after
    which the label means the symbol.  [order] is Go's arbitrary order of the
    imports. *)
Theorem C54_auto_import_partial : forall pos ns uses k declared c order space short word after_ns at_pos indentation,
  Forall decl_ok uses -> consistent_case uses -> spelled_alike uses short ->
  (forall p, In p space -> identifier p) -> identifier short -> declared (declared_name space short) = true ->
  identifier word -> ~ builtin word ->
  Permutation order (classes (imports pos ns uses)) ->
  ic_after c = Some (after_ns, at_pos, indentation) ->
  (* the short name is not already imported as something else *)
  (forall u, php_bound uses k short = Some u -> BSL :: u_name u = declared_name space short) ->
  (* no import of the first part whose target begins the typed word *)
  (forall u, exact_bound uses UseClass (hd short space) = Some u -> has_prefix (u_name u) word = false) ->
  (* functions and constants: not also imported as a class, and not hidden by
     one of the current namespace *)
  (k <> UseClass -> (forall u, In u uses -> u_kind u = UseClass -> BSL :: u_name u <> declared_name space short)
                    /\ (space = [] -> ns = [] \/ declared (in_namespace ns (Name false short [])) = false)) ->
  exists label edit,
    ResolveToQualified (imports pos ns uses) c order (class_of k) (declared_type space short) word = Some (label, edit)
    /\ match edit with
       | None => php_resolve k declared uses ns (Name false label []) = declared_name space short
       | Some e =>
           ed_range e = Rng at_pos at_pos
           /\ ed_text e = ic_eol c ++ (if after_ns then ic_eol c else []) ++ indentation ++ use_statement k (tl (declared_name space short))
           /\ forall r, php_resolve k declared (uses ++ [Use k (tl (declared_name space short)) None r]) ns (Name false label [])
                        = declared_name space short
       end.
Proof.
  intros pos ns uses k declared c order space short word after_ns at_pos indentation D CC SA VS VSh DECL VW NBW PERM AFT FREE QUIRK FUN.
  set (fqn := declared_name space short) in *.
  assert (VN : valid (Name false word [])) by (split; [exact VW|intros ? []]).
  assert (NW : ~ In BSL word) by apply VW. assert (NSh : ~ In BSL short) by apply VSh.
  assert (FQN : fqn = match join space [BSL] with [] => BSL :: short | _ => BSL :: join space [BSL] ++ BSL :: short end).
  { unfold fqn, declared_name. rewrite join_app_last. destruct space as [|p ps]; [reflexivity|].
    destruct (join (p :: ps) [BSL]) eqn:E; [apply join_identifiers_nil in E; [discriminate|exact VS]|reflexivity]. }
  unfold ResolveToQualified. change word with (text (Name false word [])) at 1. rewrite valid_fqn by assumption. cbn [absolute].
  unfold ResolveScopeNamespace. change word with (text (Name false word [])) at 1. rewrite valid_type by assumption. cbn [option_map].
  assert (WN : ts_GetNamespace (SetNamespace (TS (text (Name false word [])) (text (Name false word [])) 0) (GetNamespace (imports pos ns uses))) = BSL :: ns).
  { rewrite imports_namespace by assumption. unfold SetNamespace. cbn [ts_fqn]. rewrite valid_fqn by assumption. cbn [absolute]. unfold SetFQN. cbn [ts_original ts_array].
    change (text (Name false word [])) with word. apply namespace_of. exact NW. }
  rewrite WN. unfold declared_type. fold fqn. cbn [ts_original].
  assert (NN : ts_GetNamespace (TS fqn short 0) = BSL :: join space [BSL]) by (rewrite FQN; apply namespace_of; exact NSh).
  rewrite NN. assert (NESh : short <> []) by apply VSh.
  assert (E0 : str_eqb short [] = false) by (now apply str_eqb_neq). rewrite E0, orb_false_r.
  (* resolution of the short name when it is not imported *)
  assert (RS : (forall u, php_bound uses k short = Some u -> BSL :: u_name u = fqn) -> 
    (php_bound uses k short = None -> (match k with UseClass => in_namespace ns (Name false short []) | _ => if declared (in_namespace ns (Name false short [])) then in_namespace ns (Name false short []) else BSL :: short end) = fqn) ->
    php_resolve k declared uses ns (Name false short []) = fqn).
  { intros H1 H2. unfold php_resolve. cbn [absolute rest first]. destruct (php_bound uses k short) as [u|] eqn:B; [now apply H1|]. now apply H2. }
  destruct (str_eqb_spec (BSL :: ns) (BSL :: join space [BSL])) as [EQ|NEQ].
  - exists short, None. split; [reflexivity|]. apply RS; [exact FREE|]. intros _. injection EQ as ->.
    assert (IN : in_namespace (join space [BSL]) (Name false short []) = fqn) by (rewrite FQN; reflexivity).
    rewrite IN, DECL. destruct k; reflexivity.
  - assert (PARTS : GetParts (TS fqn short 0) = space ++ [short]).
    { unfold GetParts. cbn [ts_fqn]. unfold fqn, declared_name. cbn [split_byte]. rewrite byte_eqb_refl. rewrite split_join; [reflexivity|destruct space; discriminate|].
      intros p I. apply in_app_or in I as [I|[<-|[]]]; [apply (VS p I)|exact NSh]. }
    rewrite PARTS. destruct (space ++ [short]) as [|fp np] eqn:SP; [destruct space; discriminate|].
    assert (FP : fp = hd short space) by (destruct space; injection SP as <- _; reflexivity).
    rewrite table_classes, imports_get by assumption.
    assert (QF : match option_map (fun u => item_of u false) (exact_bound uses UseClass fp) with Some item => has_prefix (it_name item) word | None => false end = false).
    { rewrite FP. destruct (exact_bound uses UseClass (hd short space)) as [u|] eqn:EB; [|reflexivity]. cbn. now apply QUIRK. }
    rewrite QF.
    destruct (match class_of k with SyFunction | SyConst => str_eqb (BSL :: join space [BSL]) [BSL] | _ => false end) eqn:GL.
    + exists short, None. split; [reflexivity|]. apply RS; [exact FREE|]. intros _.
      assert (NK : k <> UseClass) by (intros ->; discriminate). assert (SE : space = []).
      { destruct k; [congruence| |]; apply str_eqb_eq in GL; injection GL as GL; apply join_identifiers_nil in GL; assumption. }
      destruct (FUN NK) as [_ H]. specialize (H SE). subst space. assert (FQ : fqn = BSL :: short) by reflexivity. rewrite FQ in *.
      destruct H as [->|H]; [exfalso; apply NEQ; reflexivity|]. rewrite H. destruct k; congruence.
    + destruct (find (fun p => str_eqb (BSL :: it_name (snd p)) (ts_fqn (TS fqn short 0))) order) as [[alias it]|] eqn:FI.
      * exists alias, None. split; [reflexivity|]. apply find_some in FI as [I E]. cbn [ts_fqn snd] in E. apply str_eqb_eq in E.
        apply (Permutation_in _ PERM) in I. apply am_get_in in I; [|exact (imports_nodup pos ns uses UseClass)].
        rewrite table_classes, imports_get in I by assumption. destruct (exact_bound uses UseClass alias) as [u|] eqn:EB; [|discriminate].
        cbn in I. injection I as <-. cbn in E. assert (EI := exact_in _ _ _ _ EB). destruct EI as (Iu & Ku & Bu).
        destruct k; [|exfalso; destruct (FUN ltac:(discriminate)) as [H _]; apply (H u Iu Ku E)..].
        unfold php_resolve. cbn [absolute rest first]. rewrite exact_php in EB; [rewrite EB; exact E|].
        intros v Iv L. subst alias. now apply CC.
      * assert (SC : GetScopeAndNameFromString word = ([], word)).
        { unfold GetScopeAndNameFromString. rewrite split_byte_none by assumption. destruct VW as (NEW & _). destruct word as [|w0 w]; [congruence|]. destruct w0; reflexivity. }
        rewrite SC. cbn [fst str_eqb negb andb]. exists short. eexists. split; [reflexivity|]. unfold GetUseEdit. cbn [ts_fqn]. rewrite AFT.
        destruct fqn as [|b fq] eqn:EF; [rewrite FQN in EF; destruct (join space [BSL]); discriminate|].
        cbn [ed_range ed_text tl]. split; [reflexivity|]. split; [unfold use_statement; destruct k; cbn [class_of app]; rewrite ?app_nil_r; reflexivity|].
        intros r. assert (HB : b = BSL) by (rewrite FQN in EF; destruct (join space [BSL]); congruence).
        assert (LS : last (split_byte fq BSL) [] = short).
        { unfold fqn, declared_name in EF. injection EF as _ <-. rewrite split_join; [apply last_last|destruct space; discriminate|].
          intros p I. apply in_app_or in I as [I|[<-|[]]]; [apply (VS p I)|exact NSh]. }
        unfold php_resolve. cbn [absolute rest first]. rewrite php_bound_new by exact LS. cbn [u_name]. congruence.
Qed.
Print Assumptions C54_auto_import_partial.

(** The short name is already imported as another class: the inserted statement
    binds it a second time. *)
Theorem C54_conflict_refuted : exists uses k space short word c label e,
  Forall decl_ok uses /\ identifier word /\ identifier short
  /\ ResolveToQualified (imports zero_pos (B "App") uses) c (classes (imports zero_pos (B "App") uses)) (class_of k) (declared_type space short) word
     = Some (label, Some e)
  /\ exists u, In u uses /\ u_kind u = k /\ bound_name u = label.
Proof.
  exists [use_of UseClass (B "Lib\Shop")], UseClass, [B "Other"], (B "Shop"), (B "Sh"), (Insert (Some (false, zero_pos, [])) (B "x")), (B "Shop"). eexists.
  split; [repeat constructor; discriminate|]. split; [apply identifier_dec; reflexivity|]. split; [apply identifier_dec; reflexivity|].
  split; [vm_compute; reflexivity|]. eexists. split; [left; reflexivity|]. split; reflexivity.
Qed.
Print Assumptions C54_conflict_refuted.

(** A class of the current namespace whose name is imported from elsewhere is
    completed by its short name, which means the other class. *)
Theorem C54_shadowed_refuted : exists uses space short word label declared c,
  Forall decl_ok uses /\ identifier word
  /\ ResolveToQualified (imports zero_pos (B "App") uses) c (classes (imports zero_pos (B "App") uses)) SyClass (declared_type space short) word
     = Some (label, None)
  /\ php_resolve UseClass declared uses (B "App") (Name false label []) <> declared_name space short.
Proof.
  exists [use_of UseClass (B "Lib\Shop")], [B "App"], (B "Shop"), (B "Sh"), (B "Shop"), (fun _ => true), (Insert None []).
  split; [repeat constructor; discriminate|]. split; [apply identifier_dec; reflexivity|]. split; [vm_compute; reflexivity|]. vm_compute. discriminate.
Qed.
Print Assumptions C54_shadowed_refuted.

Example C54_hypotheses_met : let uses := [use_of UseClass (B "Lib\Cart")] in
  ResolveToQualified (imports zero_pos (B "App") uses) (Insert (Some (true, Pos 2 14, [])) [x0a]) (classes (imports zero_pos (B "App") uses)) SyClass
    (declared_type [B "Lib"; B "Model"] (B "Shop")) (B "Sh")
  = Some (B "Shop", Some (Edit (Rng (Pos 2 14) (Pos 2 14)) (x0a :: x0a :: B "use Lib\Model\Shop;")))
  /\ consistent_case uses /\ spelled_alike uses (B "Shop") /\ php_bound uses UseClass (B "Shop") = None
  /\ exact_bound uses UseClass (hd (B "Shop") [B "Lib"; B "Model"]) = None.
Proof.
  cbv zeta. split; [vm_compute; reflexivity|]. split; [intros u v [<-|[]] [<-|[]] _; reflexivity|].
  split; [intros u [<-|[]] H; vm_compute in H; discriminate|]. split; vm_compute; reflexivity.
Qed.

(** ** C60 unused imports *)
(** names are spelled as in their imports, and fully qualified names are not
    spelled like imported ones *)
Definition plain_block (block : list code) : Prop :=
  forall c u, In c block -> In (CUse u) block ->
    (match c with CUse _ => True | CClass n | CCall n | CConstant n =>
       (absolute n = true -> bound_name u <> first n) /\ (lower_ascii (bound_name u) = lower_ascii (first n) -> bound_name u = first n) end).

Theorem C60_unused_imports_partial : forall pos ns block, Forall code_ok block -> plain_block block ->
  exists i, analyse_block pos ns block = Some i
    /\ forall it, In it (unusedImportItems i) <-> exists u, unused block u /\ it = Item (u_name u) (u_range u) false.
Proof.
  intros pos ns block OK PL. destruct (analyse_usage pos ns block OK) as (i & E & ND & G). exists i. split; [exact E|].
  assert (LK : forall u c, In (CUse u) block -> In c block -> (looked_up c = Some (u_kind u, bound_name u) <-> refers u c)).
  { intros u c Iu Ic. assert (P := PL c u Ic Iu). unfold refers. destruct c as [v|n|n|n]; cbn [looked_up reference].
    - split; [discriminate|]. intros (a & H & _). discriminate.
    - destruct P as [P1 P2]. split.
      + intros [= K F]. exists (first n). destruct (absolute n); [exfalso; now apply P1|]. rewrite K, F. split; [reflexivity|]. destruct (u_kind u); apply str_eqb_refl.
      + intros (a & H & S). destruct (absolute n); [discriminate|]. injection H as K <-. f_equal. f_equal; [exact K|]. symmetry.
        destruct (u_kind u); cbn [same_name] in S; apply str_eqb_eq in S; auto.
    - destruct P as [P1 P2]. split.
      + intros [= K F]. exists (first n). destruct (absolute n); [exfalso; now apply P1|]. rewrite K, F. split; [reflexivity|]. destruct (u_kind u); apply str_eqb_refl.
      + intros (a & H & S). destruct (absolute n); [discriminate|]. injection H as K <-. f_equal. f_equal; [exact K|]. symmetry.
        destruct (u_kind u); cbn [same_name] in S; apply str_eqb_eq in S; auto.
    - destruct P as [P1 P2]. split.
      + intros [= K F]. exists (first n). destruct (absolute n); [exfalso; now apply P1|]. rewrite K, F. split; [reflexivity|]. destruct (u_kind u); apply str_eqb_refl.
      + intros (a & H & S). destruct (absolute n); [discriminate|]. injection H as K <-. f_equal. f_equal; [exact K|]. symmetry.
        destruct (u_kind u); cbn [same_name] in S; apply str_eqb_eq in S; auto. }
  intros it. rewrite unused_items by assumption. split.
  - intros (U & k & a & H). rewrite G in H. destruct (usage k a block) as [[u b]|] eqn:EU; [|discriminate]. injection H as <-. cbn in U. subst b.
    apply usage_false in EU as (b & aft & EB & K & Bn & R & Dp). exists u. split; [|reflexivity]. exists b, aft. split; [exact EB|]. split.
    + intros c Ic H. apply (R c Ic). subst k a. apply LK; [| |exact H]; rewrite EB; apply in_or_app; right; [left; reflexivity|right; exact Ic].
    + intros v Iv Kv. subst k a. now apply Dp.
  - intros (u & (b & aft & EB & R & Dp) & ->). split; [reflexivity|]. exists (u_kind u), (bound_name u). rewrite G.
    assert (EU : usage (u_kind u) (bound_name u) block = Some (u, false)).
    { apply usage_false. exists b, aft. split; [exact EB|]. split; [reflexivity|]. split; [reflexivity|]. split; [|exact Dp].
      intros c Ic H. apply (R c Ic). apply LK; [| |exact H]; rewrite EB; apply in_or_app; right; [left; reflexivity|right; exact Ic]. }
    rewrite EU. reflexivity.
Qed.
Print Assumptions C60_unused_imports_partial.

(** A fully qualified name spelled like an import hides that the import is
    unused. *)
Theorem C60_fully_qualified_refuted : exists block u i, Forall code_ok block /\ unused block u
  /\ analyse_block zero_pos (B "App") block = Some i /\ unusedImportItems i = [].
Proof.
  exists [CUse (use_of UseClass (B "Lib\Shop")); CClass (Name true (B "Shop") [])], (use_of UseClass (B "Lib\Shop")). eexists.
  split.
  { constructor; [discriminate|]. constructor; [|constructor]. split; [split; [apply identifier_dec; reflexivity|intros ? []]|].
    intros H. apply existsb_in in H. vm_compute in H. discriminate. }
  split; [|split; [vm_compute; reflexivity|reflexivity]].
  exists [], [CClass (Name true (B "Shop") [])]. split; [reflexivity|]. split.
  - intros c [<-|[]] (a & H & _). discriminate.
  - intros v [H|[]]. discriminate.
Qed.
Print Assumptions C60_fully_qualified_refuted.

Example C60_hypotheses_met : let block := [CUse (use_of UseClass (B "Lib\Shop")); CUse (use_of UseClass (B "Lib\Cart"));
    CUse (use_of UseFunction (B "Lib\total")); CClass (Name false (B "Shop") []); CCall (Name false (B "Cart") [B "total"])] in
  plain_block block /\ option_map (fun i => map it_name (unusedImportItems i)) (analyse_block zero_pos (B "App") block) = Some [B "Lib\total"].
Proof.
  cbv zeta. split; [|vm_compute; reflexivity].
  intros c u Ic [H|[H|[H|[H|[H|[]]]]]]; try discriminate H; injection H as <-;
    destruct Ic as [<-|[<-|[<-|[<-|[<-|[]]]]]]; try exact I; (split; [discriminate|vm_compute; congruence]).
Qed.
