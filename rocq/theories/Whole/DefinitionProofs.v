(** Proofs about "go to definition". *)
From Coq Require Import String.
From Coq Require Import List Bool NArith ZArith Lia.
From Coq.Strings Require Import Byte.
From Verif Require Import Base.Bytes Base.BytesProofs Base.Protocol Codec.CodecModel Codec.CodecSpec Codec.SymbolCodecModel Codec.SymbolCodecSpec Codec.SymbolCodecProofs
  Symbols.Symbols Symbols.KeysModel Text.TextModel Text.PositionModel
  Types.TypesModel Types.ImportModel Types.ImportSpec Types.ImportProofs Rpc.StreamModel Rpc.StreamSpec
  Analyse.SyntaxModel Analyse.AnalyseModel Analyse.AnalyseSpec Analyse.DeclareSpec Analyse.UseSpec Analyse.UseProofs Analyse.ResolveSpec Analyse.ResolveProofs
  Analyse.RefModel Storage.KvModel Storage.KvProofs Store.FilterModel Store.StoreModel Store.StoreSpec Store.StoreProofs Store.LookupProofs Store.LookupKinds
  Query.QueryModel Query.QueryStoreModel Query.QuerySpec Query.QueryProofs Query.QueryMembers Query.QueryHistorySpec Query.QueryHistory
  Whole.IndexSpec Whole.RefProofs Whole.CursorModel Whole.CursorSpec Whole.CursorProofs Whole.DefinitionModel Whole.DefinitionSpec.
Import ListNotations.
Open Scope list_scope.
Open Scope nat_scope.

(** ** The symbol under the cursor *)
Definition hit (pos : position) (r : range) : bool := ((IsInRange pos r =? 0) || ((0 <? IsInRange pos r) && (ComparePos pos (r_end r) =? 0)))%Z.
Lemma hit_touches : forall pos r, hit pos r = true -> touches pos r.
Proof.
  intros pos r H. apply orb_prop in H as [H|H]; [left; apply Z.eqb_eq; exact H|right]. apply andb_prop in H as (_ & H). apply Z.eqb_eq. exact H.
Qed.
Lemma touches_hit : forall pos r, touches pos r -> (0 <= IsInRange pos r)%Z -> hit pos r = true.
Proof.
  intros pos r [T|T] P; unfold hit; [rewrite T; reflexivity|]. destruct (Z.eqb_spec (IsInRange pos r) 0) as [E|E]; [reflexivity|].
  replace (0 <? IsInRange pos r)%Z with true by (symmetry; apply Z.ltb_lt; lia). rewrite T. reflexivity.
Qed.
Lemma all_nested : forall pos kids, (fix all (l : list asym) : Prop := match l with [] => True | k :: l => nested_at pos k /\ all l end) kids <-> Forall (nested_at pos) kids.
Proof. intros pos kids. induction kids as [|k kids IH]; split; intros H; [constructor|exact I|destruct H as (H & K); constructor; [exact H|apply IH; exact K]|inversion H; subst; split; [assumption|apply IH; assumption]]. Qed.

Section At.
Variables (pos : position) (a : adata).
Hypothesis Ha : has_types (a_kind a) = true.
(** what is left of the search when it has come to a list of symbols *)
Definition tame (l : list adata) : Prop :=
  (forall b, In b l -> has_types (a_kind b) = true -> touches pos (a_range b) -> b = a) /\
  (forall before b after c, l = before ++ b :: after -> In c (b :: after) -> touches pos (a_range c) -> (0 <= IsInRange pos (a_range b))%Z).
Lemma tame_app : forall l m, tame (l ++ m) -> tame l /\ tame m.
Proof.
  intros l m (O & P). split; split.
  - intros b I. apply O. apply in_or_app. left. exact I.
  - intros before b after c E Ic T. apply (P before b (after ++ m) c); [rewrite E, <- app_assoc; reflexivity| |exact T]. destruct Ic as [<-|Ic]; [left; reflexivity|right; apply in_or_app; left; exact Ic].
  - intros b I. apply O. apply in_or_app. right. exact I.
  - intros before b after c E Ic T. apply (P (l ++ before) b after c); [rewrite E, app_assoc; reflexivity|exact Ic|exact T].
Qed.
Definition searched (run : option adata * bool -> option adata * bool) (l : list adata) : Prop :=
  (* once [a] is found it stays *)
  (forall stop, fst (run (Some a, stop)) = Some a) /\
  (* nothing stops the search in front of [a] *)
  (forall later o, tame (l ++ later) -> (exists c, In c later /\ touches pos (a_range c)) -> snd (run (o, false)) = false) /\
  (* and it is found *)
  (In a l -> touches pos (a_range a) -> forall o, fst (run (o, false)) = Some a).
Lemma searched_list : forall syms, Forall (fun s => tame (preorder s) -> nested_at pos s -> searched (fun f => types_at pos f s) (preorder s)) syms ->
  tame (flat_map preorder syms) -> Forall (nested_at pos) syms -> searched (fun f => fold_left (types_at pos) syms f) (flat_map preorder syms).
Proof.
  intros syms H. induction H as [|s syms Hs _ IH]; intros T N.
  - split; [|split]; [reflexivity|reflexivity|intros []].
  - cbn [flat_map] in T. destruct (tame_app _ _ T) as (T1 & T2). inversion N as [|? ? N1 N2]; subst. destruct (Hs T1 N1) as (K1 & G1 & F1). destruct (IH T2 N2) as (K2 & G2 & F2). split; [|split].
    + intros stop. cbn [fold_left]. specialize (K1 stop). destruct (types_at pos (Some a, stop) s) as (o, b). cbn [fst] in K1. subst o. apply K2.
    + intros later o Tl (c & Ic & Tc). cbn [fold_left flat_map]. assert (S1 : snd (types_at pos (o, false) s) = false).
      { apply (G1 (flat_map preorder syms ++ later)); [rewrite app_assoc; exact Tl|]. exists c. split; [apply in_or_app; right; exact Ic|exact Tc]. }
      destruct (types_at pos (o, false) s) as (o1, b1). cbn [snd] in S1. subst b1. apply (G2 later); [|exists c; split; assumption].
      cbn [flat_map] in Tl. rewrite <- app_assoc in Tl. apply tame_app in Tl. apply Tl.
    + intros I Tc o. cbn [fold_left flat_map] in *. apply in_app_or in I. destruct I as [I|I].
      * specialize (F1 I Tc o). destruct (types_at pos (o, false) s) as (o1, b1). cbn [fst] in F1. subst o1. apply K2.
      * assert (S1 : snd (types_at pos (o, false) s) = false) by (apply (G1 (flat_map preorder syms)); [exact T|exists a; split; assumption]).
        destruct (types_at pos (o, false) s) as (o1, b1). cbn [snd] in S1. subst b1. apply F2; assumption.
Qed.
Lemma searched_one : forall s, tame (preorder s) -> nested_at pos s -> searched (fun f => types_at pos f s) (preorder s).
Proof.
  induction s as [x kids IH] using asym_ind'. intros T N. cbn [preorder] in *. destruct N as (Nx & Nk). apply all_nested in Nk.
  assert (Tk : tame (flat_map preorder kids)) by (change (x :: flat_map preorder kids) with ([x] ++ flat_map preorder kids) in T; apply tame_app in T; apply T).
  destruct (searched_list kids IH Tk Nk) as (Kk & Gk & Fk). cbv beta in *. split; [|split].
  - intros stop. cbn [types_at fst snd]. destruct stop; [reflexivity|]. fold (hit pos (a_range x)).
    destruct (hit pos (a_range x)) eqn:Hx.
    + destruct (has_types (a_kind x)) eqn:Tx; [|apply Kk]. rewrite (proj1 T x (or_introl eq_refl) Tx (hit_touches _ _ Hx)). apply Kk.
    + destruct (IsInRange pos (a_range x) <? 0)%Z; [reflexivity|]. destruct (0 <? IsInRange pos (a_range x))%Z; [reflexivity|]. apply Kk.
  - intros later o Tl (c & Ic & Tc). assert (Px : (0 <= IsInRange pos (a_range x))%Z) by (apply (proj2 Tl [] x (flat_map preorder kids ++ later) c); [reflexivity|right; apply in_or_app; right; exact Ic|exact Tc]).
    assert (Tl' : tame (flat_map preorder kids ++ later)) by (change ((x :: flat_map preorder kids) ++ later) with ([x] ++ (flat_map preorder kids ++ later)) in Tl; apply tame_app in Tl; apply Tl).
    cbn [types_at fst snd]. fold (hit pos (a_range x)). destruct (hit pos (a_range x)); [apply (Gk later); [exact Tl'|exists c; split; assumption]|].
    destruct (Z.ltb_spec (IsInRange pos (a_range x)) 0) as [L|_]; [lia|]. destruct (0 <? IsInRange pos (a_range x))%Z; [reflexivity|].
    apply (Gk later); [exact Tl'|exists c; split; assumption].
  - intros I Ta o. cbn [types_at fst snd]. fold (hit pos (a_range x)).
    assert (Tx : touches pos (a_range x)) by (destruct I as [->|I]; [exact Ta|exact (Nx a I Ta)]).
    assert (Px : (0 <= IsInRange pos (a_range x))%Z) by (apply (proj2 T [] x (flat_map preorder kids) x); [reflexivity|left; reflexivity|exact Tx]).
    rewrite (touches_hit _ _ Tx Px). destruct I as [->|I]; [rewrite Ha; apply Kk|]. apply Fk; assumption.
Qed.
End At.
Lemma found_here : forall pos syms a, Forall (nested_at pos) syms -> listed_in_order pos syms -> In a (flat_map preorder syms) -> has_types (a_kind a) = true -> alone pos syms a ->
  HasTypesAtPos syms pos = Some a.
Proof.
  intros pos syms a N O I Ht (T & Al). unfold HasTypesAtPos.
  assert (Tm : tame pos a (flat_map preorder syms)) by (split; [exact Al|exact O]).
  apply (searched_list pos a syms); [|exact Tm|exact N|exact I|exact T]. apply Forall_forall. intros s _. apply searched_one. exact Ht.
Qed.

(** ** Look-ups *)
Section Answers.
Context {TX : Text} {X : XorFilter}.
Hypothesis TOK : text_ok TX.
Variables (root : gostr) (h : list event) (st : store).
Hypothesis OK : Forall event_ok h.
Hypothesis RUN : run root h = Some st.
Ltac coll_iff := solve [intros s0; split; [destruct s0; simpl; try discriminate; eauto|intros [a0 ->]; reflexivity]].
Ltac wk := solve [intros s0 W; destruct s0; simpl in W; try contradiction; eauto].
Ltac named_exact := intros a Cu; unfold symbol_key; cbn [GetKey GetCollection wanted]; apply prefix_sep_any;
  [apply (current_names TOK _ _ OK Cu); left; reflexivity|exact (current_uri TOK h OK _ Cu)].
Lemma functions_exact : forall n, exists l, ask st (QFunction n) = Some l /\ exact_answer h (QFunction n) l.
Proof.
  intros n. unfold ask, GetFunctions.
  apply (kind_exact TOK _ SFunction ReadFunction (fun s => Function (f_location s) zero_loc (f_name s) (map forget_param (f_params s)) (f_return s) (f_description s) (f_deprecated s)) functionCollection root); auto; try (nul_free || discriminate || coll_iff || wk).
  - intros a u (H & _). rewrite <- (app_nil_r (Serialise _)). now apply function_roundtrip.
  - congruence.
  - apply (own_plain TOK); auto; discriminate.
  - named_exact.
Qed.
Lemma consts_exact : forall n, exists l, ask st (QConst n) = Some l /\ exact_answer h (QConst n) l.
Proof.
  intros n. unfold ask, GetConsts.
  apply (kind_exact TOK _ SConst ReadConst (fun a => a) constCollection root); auto; try (nul_free || discriminate || coll_iff || wk).
  - intros a u (H & _). rewrite <- (app_nil_r (Serialise _)). now apply const_roundtrip.
  - congruence.
  - apply (own_plain TOK); auto; discriminate.
  - named_exact.
Qed.
Lemma defines_exact : forall n, exists l, ask st (QDefine n) = Some l /\ exact_answer h (QDefine n) l.
Proof.
  intros n. unfold ask, GetDefines.
  apply (kind_exact TOK _ SDefine ReadDefine (fun a => a) defineCollection root); auto; try (nul_free || discriminate || coll_iff || wk).
  - intros a u (H & _). rewrite <- (app_nil_r (Serialise _)). now apply define_roundtrip.
  - congruence.
  - apply (own_plain TOK); auto; discriminate.
  - named_exact.
Qed.
End Answers.

(** ** Names *)
Lemma bound_in : forall us k a u, exact_bound us k a = Some u -> In u us /\ u_kind u = k /\ bound_name u = a.
Proof.
  intros us k a u H. unfold exact_bound in H. apply find_some in H as (I & H). apply andb_prop in H as (K & N). split; [apply in_rev; exact I|]. split; [apply same_kind_eq; exact K|apply str_eqb_eq; exact N].
Qed.
(** a full name stays the same, unless an import has another meaning for its first part *)
Lemma stays : forall us ns table t r, Forall decl_ok us -> same_names (imports zero_pos ns us) table -> ts_fqn t = BSL :: r -> not_renamed us (BSL :: r) ->
  fst (GetClassReferenceFQN table t) = BSL :: r.
Proof.
  intros us ns table t r D Sn Ft Nr. rewrite (same_resolution _ _ t Sn). unfold GetClassReferenceFQN, GetFirstAndRestParts, GetParts. rewrite Ft.
  assert (Sp : split_byte (BSL :: r) BSL = [] :: split_byte r BSL) by reflexivity. rewrite Sp.
  assert (J : join (split_byte r BSL) [BSL] = r) by apply join_split.
  destruct (split_byte r BSL) as [|p ps] eqn:E; [exfalso; exact (split_byte_not_nil _ _ E)|].
  rewrite table_classes, imports_get by exact D. destruct (exact_bound us ImportModel.UseClass p) as [u|] eqn:Eb; cbn [option_map].
  - destruct (bound_in _ _ _ _ Eb) as (Iu & Ku & Nu). cbn [fst item_of it_name].
    assert (U : u_name u = p).
    { rewrite (Nr u Iu Ku); [exact Nu|]. rewrite Nu, <- J. destruct ps as [|q ps]; [left; reflexivity|right; eexists; cbn [join]; reflexivity]. }
    rewrite U, <- J. destruct ps as [|q ps]; [reflexivity|]. rewrite join_cons. reflexivity.
  - unfold SetNamespace. rewrite Ft. assert (Fq : IsFQN (BSL :: r) = true) by (unfold IsFQN; rewrite byte_eqb_refl; apply orb_true_r). rewrite Fq. cbn [fst]. exact Ft.
Qed.
Lemma resolve_full : forall declared us ns pn, valid pn -> exists r, php_resolve ImportModel.UseClass declared us ns pn = BSL :: r.
Proof.
  intros declared us ns pn V. unfold php_resolve, text, in_namespace. destruct (absolute pn); [eexists; reflexivity|]. destruct (rest pn); (destruct (php_bound us _ _); [eexists; reflexivity|]; destruct ns; eexists; reflexivity).
Qed.
Lemma same_function_resolution : forall declared a b t, same_names a b -> GetFunctionReferenceFQN declared b t = GetFunctionReferenceFQN declared a t.
Proof.
  intros declared a b t (N & C & F & _). unfold GetFunctionReferenceFQN. destruct (GetFirstAndRestParts t) as (f, r). rewrite N. specialize (C f). specialize (F f). unfold names_of in *.
  destruct r; [destruct (am_get (functions b) f), (am_get (functions a) f)|destruct (am_get (classes b) f), (am_get (classes a) f)]; cbn in *; try discriminate; congruence.
Qed.
Lemma same_const_resolution : forall is_const is_define a b t, same_names a b -> GetConstReferenceFQN is_const is_define b t = GetConstReferenceFQN is_const is_define a t.
Proof.
  intros is_const is_define a b t (N & C & _ & K). unfold GetConstReferenceFQN. destruct (GetFirstAndRestParts t) as (f, r). rewrite N. specialize (C f). specialize (K f). unfold names_of in *.
  destruct r; [destruct (am_get (constants b) f), (am_get (constants a) f)|destruct (am_get (classes b) f), (am_get (classes a) f)]; cbn in *; try discriminate; congruence.
Qed.

(** ** Where the declarations are *)
Section Places.
Context {TX : Text} {X : XorFilter}.
Hypothesis TOK : text_ok TX.
Variables (root : gostr) (h : list event) (st : store).
Hypothesis OK : Forall event_ok h.
Hypothesis RUN : run root h = Some st.
Definition at_places (qs : list StoreSpec.query) (found : option (list location)) : Prop := exists l, found = Some l /\ forall loc, In loc l <-> exists q, In q qs /\ declared_at h q loc.
Lemma keep_place : forall s, location_of (keep s) = location_of s.
Proof. destruct s; reflexivity. Qed.
Lemma places : forall A (inj : A -> symbol) (place : A -> location) (found : option (list A)) q l,
  (forall a, location_of (inj a) = place a) -> option_map (map inj) found = Some l -> exact_answer h q l -> at_places [q] (locations place found).
Proof.
  intros A inj place found q l Pl E (_ & Ex). destruct found as [l'|]; [|discriminate E]. injection E as <-. exists (map place l'). split; [reflexivity|].
  intros loc. rewrite in_map_iff. split.
  - intros (a & Ea & Ia). apply (in_map inj) in Ia. apply Ex in Ia as (s & C & W & K). exists q. split; [left; reflexivity|]. exists s. split; [exact C|split; [exact W|]].
    rewrite <- keep_place, <- K, Pl. exact Ea.
  - intros (q' & [<-|[]] & s & C & W & L). assert (I : In (keep s) (map inj l')) by (apply Ex; exists s; auto). apply in_map_iff in I as (a & Ea & Ia). exists a. split; [|exact Ia].
    rewrite <- Pl, Ea, keep_place. exact L.
Qed.
Lemma class_places : forall n, at_places [QClass n] (locations c_location (Query_GetClasses st n)).
Proof. intros n. destruct (classes_exact TOK root h st OK RUN n) as (l & A & E). exact (places _ SClass _ _ _ _ (fun _ => eq_refl) A E). Qed.
Lemma interface_places : forall n, at_places [QInterface n] (locations i_location (GetInterfaces st n)).
Proof. intros n. destruct (interfaces_exact TOK root h st OK RUN n) as (l & A & E). exact (places _ SInterface _ _ _ _ (fun _ => eq_refl) A E). Qed.
Lemma trait_places : forall n, at_places [QTrait n] (locations t_location (GetTraits st n)).
Proof. intros n. destruct (traits_exact TOK root h st OK RUN n) as (l & A & E). exact (places _ STrait _ _ _ _ (fun _ => eq_refl) A E). Qed.
Lemma function_places : forall n, at_places [QFunction n] (locations f_location (GetFunctions st n)).
Proof. intros n. destruct (functions_exact TOK root h st OK RUN n) as (l & A & E). exact (places _ SFunction _ _ _ _ (fun _ => eq_refl) A E). Qed.
Lemma const_places : forall n, at_places [QConst n] (locations k_location (GetConsts st n)).
Proof. intros n. destruct (consts_exact TOK root h st OK RUN n) as (l & A & E). exact (places _ SConst _ _ _ _ (fun _ => eq_refl) A E). Qed.
Lemma define_places : forall n, at_places [QDefine n] (locations d_location (GetDefines st n)).
Proof. intros n. destruct (defines_exact TOK root h st OK RUN n) as (l & A & E). exact (places _ SDefine _ _ _ _ (fun _ => eq_refl) A E). Qed.
Lemma no_places : at_places [] (Some []).
Proof. exists []. split; [reflexivity|]. intros loc. split; [intros []|intros (q & [] & _)]. Qed.
Lemma more_places : forall qs1 qs2 f l, at_places qs1 f -> at_places qs2 (concat_opt l) -> at_places (qs1 ++ qs2) (concat_opt (f :: l)).
Proof.
  intros qs1 qs2 f l (l1 & -> & E1) (l2 & El & E2). exists (l1 ++ l2). cbn [concat_opt]. rewrite El. split; [reflexivity|]. intros loc. rewrite in_app_iff, E1, E2. split.
  - intros [(q & I & D)|(q & I & D)]; exists q; (split; [apply in_or_app; auto|exact D]).
  - intros (q & I & D). apply in_app_or in I as [I|I]; [left|right]; exists q; auto.
Qed.
Lemma can_open_iff : forall loc, IsURINavigatable (l_uri loc) = true <-> can_open loc.
Proof. intros loc. unfold IsURINavigatable, can_open. rewrite has_prefix_spec. reflexivity. Qed.
Lemma led : forall qs found, at_places qs found -> leads_to h qs (option_map (List.filter (fun loc => IsURINavigatable (l_uri loc))) found).
Proof.
  intros qs found (l & -> & E). eexists. split; [reflexivity|]. intros loc. rewrite filter_In, can_open_iff, E. tauto.
Qed.
(** whether something is declared *)
Lemma any_iff : forall A (inj : A -> symbol) (found : option (list A)) q l, option_map (map inj) found = Some l -> exact_answer h q l ->
  (any found = true <-> exists x, current h x /\ wanted q x).
Proof.
  intros A inj found q l E (_ & Ex). destruct found as [l'|]; [|discriminate E]. injection E as <-. split.
  - intros H. destruct l' as [|a l']; [discriminate H|]. destruct (proj1 (Ex (inj a)) (or_introl eq_refl)) as (s & C & W & _). exists s. auto.
  - intros (x & C & W). assert (I : In (keep x) (map inj l')) by (apply Ex; exists x; auto). destruct l'; [destruct I|reflexivity].
Qed.
Lemma any_function : forall f, any (GetFunctions st f) = true <-> exists x, current h x /\ wanted (QFunction f) x.
Proof. intros n. destruct (functions_exact TOK root h st OK RUN n) as (l & A & E). exact (any_iff _ SFunction _ _ _ A E). Qed.
Lemma any_const : forall f, any (GetConsts st f) = true <-> exists x, current h x /\ wanted (QConst f) x.
Proof. intros n. destruct (consts_exact TOK root h st OK RUN n) as (l & A & E). exact (any_iff _ SConst _ _ _ A E). Qed.
Lemma any_define : forall f, any (GetDefines st f) = true <-> exists x, current h x /\ wanted (QDefine f) x.
Proof. intros n. destruct (defines_exact TOK root h st OK RUN n) as (l & A & E). exact (any_iff _ SDefine _ _ _ A E). Qed.
End Places.
