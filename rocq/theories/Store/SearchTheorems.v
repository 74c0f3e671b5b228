From Coq Require Import String.
From Coq Require Import List Bool NArith ZArith Lia.
From Coq.Strings Require Import Byte.
From Verif Require Import Base.Bytes Base.BytesProofs Base.Protocol Base.Utf8 Base.Utf8Proofs
  Codec.CodecModel Codec.CodecSpec Codec.CodecProofs Codec.SymbolCodecModel Codec.SymbolCodecSpec Codec.SymbolCodecProofs
  Symbols.Symbols Symbols.KeysModel Words.TokeniserModel Words.TokeniserSpec Words.TokeniserProofs
  Storage.KvModel Storage.KvSpec Storage.KvProofs
  Store.FilterModel Store.StoreModel Store.StoreSpec Store.StoreProofs Store.LookupProofs Store.LookupKinds Store.StoreTheorems
  Store.SearchModel Store.SearchSpec Store.SearchProofs Types.TypesModel.
Import ListNotations.
Open Scope list_scope.

Lemma well_encoded_iff : forall s, well_encoded s <-> ~ In RuneError (to_runes s).
Proof.
  intros s. unfold well_encoded, to_runes. split.
  - intros H I. apply in_map_iff in I as ([i r] & E & I). exact (H i r I E).
  - intros H i r I E. apply H. apply in_map_iff. exists (i, r). auto.
Qed.

Lemma well_encoded_after : forall a s, well_encoded (a ++ BSL :: s) -> well_encoded s.
Proof.
  intros a s. rewrite !well_encoded_iff. intros H I. apply H.
  assert (A : ascii_byte BSL) by (vm_compute; reflexivity).
  destruct (runes_after_ascii a BSL s A) as [rs ->]. apply in_or_app. right. rewrite to_runes_ascii_cons by assumption. right. exact I.
Qed.

Lemma qualifier_word : forall k scope w, qualifier k scope w -> well_encoded k -> ~ In NUL k -> well_encoded w /\ ~ In NUL w /\ ~ In NUL scope.
Proof.
  intros k scope w [(_ & _ & -> & ->)|[(-> & -> & ->)|(ns & Nw & -> & ->)]] W N.
  - split; [exact W|]. split; [exact N|]. intros [].
  - split; [exact W|]. split; [exact N|]. intros [C|[]]. discriminate.
  - split; [eapply well_encoded_after; exact W|]. split.
    + intros I. apply N. apply in_or_app. right. right. exact I.
    + rewrite trim_prefix_bsl. intros [C|I]; [discriminate|]. apply N. apply in_or_app. left.
      destruct ns as [|b t]; [destruct I|]. destruct (byte_eqb b BSL); [right|]; exact I.
Qed.

Section S.
Context {T : Text} {X : XorFilter}.
Hypothesis TOK : text_ok T.

Lemma keep_scope : forall s, GetScope (keep s) = GetScope s.
Proof. destruct s; reflexivity. Qed.

Lemma keep_in_scope : forall scope s, in_scope scope (keep s) <-> in_scope scope s.
Proof. intros. unfold in_scope. rewrite keep_scope. reflexivity. Qed.

Lemma namespace_predicate_iff : forall scope s, namespacePredicate scope s = true <-> in_scope scope s.
Proof.
  intros [|b scope] s; unfold namespacePredicate, in_scope.
  - split; auto.
  - destruct (GetScope s) as [c|].
    + rewrite str_eqb_eq. split; [intros ->; auto|intros [H|H]; [discriminate|congruence]].
    + split; [discriminate|intros [H|H]; discriminate].
Qed.

Lemma satisfies_scope : forall o scope x, satisfies (WithPredicate o (namespacePredicate scope)) x <-> satisfies o x /\ in_scope scope x.
Proof.
  intros o scope x. unfold satisfies. cbn [WithPredicate so_predicates]. rewrite <- namespace_predicate_iff. split.
  - intros H. split; [intros p I; apply H; apply in_or_app; auto|]. apply H. apply in_or_app. right. left. reflexivity.
  - intros [H1 H2] p I. apply in_app_or in I as [I|[<-|[]]]; auto.
Qed.

(** what is proved of every search *)
Definition answers (h : list event) (q : search) (o : search_options) (count : Z) (r : outcome) : Prop :=
  let '(l, complete, count') := r in
  NoDup l
  /\ (forall x, In x l -> exists s, current h s /\ kind_of s = search_kind q /\ shown s x /\ (stable_names h -> found_by q s))
  /\ (~ lists_all q -> forall x, In x l -> satisfies o x)
  /\ (complete = true -> (qualified_class q -> match so_limit o with None => True | Some n => l = [] \/ (count' < n)%Z end) ->
      forall s, current h s -> found_by q s -> lists_all q \/ satisfies o (keep s) -> In (keep s) l)
  /\ (~ lists_all q ->
      match so_limit o with
      | None => count' = count /\ ((forall c, q <> FindMethods c []) -> complete = true)
      | Some n => (Z.of_nat (length l) <= Z.max 1 (n - count))%Z /\ count' = (count + Z.of_nat (length l))%Z
          /\ ((forall c, q <> FindMethods c []) -> ~ qualified_class q -> (complete = true <-> l = [] \/ (count' < n)%Z))
          /\ (qualified_class q -> complete = true)
      end).

Lemma stable_key : forall h, Forall event_ok h -> stable_names h ->
  forall d s0 s, In d (synced_docs h) -> In s0 (d_symbols d) -> current h s ->
  symbol_key s0 = symbol_key s -> indexed_kind s0 ->
  (forall d1 d2 s1 s2, In d1 (synced_docs h) -> In d2 (synced_docs h) ->
    In s1 (d_symbols d1) -> In s2 (d_symbols d2) -> GetCollection s1 = GetCollection s0 -> indexed_kind s1 -> indexed_kind s2 ->
    symbol_key s1 = symbol_key s2 -> d_uri d1 = d_uri d2) ->
  simple_name s0 = simple_name s.
Proof.
  intros h OK ST d s0 s Id I0 (u & d' & L & D) EK K0 OWN. apply latest_in in L as [Id' _].
  assert (DOK := synced_docs_ok _ _ OK Id). assert (DOK' := synced_docs_ok _ _ OK Id').
  apply declares_iff in D; [|assumption|assumption]. destruct D as (K & Is & _).
  assert (U := OWN d d' s0 s Id Id' I0 Is eq_refl K0 K EK).
  apply (ST d d' s0 s Id Id' U I0 Is).
  destruct DOK as (_ & _ & F & _). destruct DOK' as (_ & _ & F' & _). rewrite Forall_forall in F, F'.
  assert (F'' := F' _ Is). rewrite <- U in F''.
  apply (key_same_entry TOK _ _ _ _ (F _ I0) F'' K0 K EK). destruct s0; auto.
Qed.

Lemma outcome_answers : forall h q scope w o count r,
  (match q with FindConsts _ | FindDefines _ => scope = [] | _ => True end) ->
  ~ lists_all q -> ~ qualified_class q -> (forall c, q <> FindMethods c []) ->
  Forall event_ok h ->
  (forall s, kind_of s = search_kind q -> (found_by q s <-> matches w (simple_name s) /\ in_scope scope s)) ->
  (forall s, kind_of s = search_kind q -> indexed_kind s) ->
  (forall s0, kind_of s0 = search_kind q -> forall d1 d2 s1 s2, In d1 (synced_docs h) -> In d2 (synced_docs h) ->
    In s1 (d_symbols d1) -> In s2 (d_symbols d2) -> GetCollection s1 = GetCollection s0 -> indexed_kind s1 -> indexed_kind s2 ->
    symbol_key s1 = symbol_key s2 -> d_uri d1 = d_uri d2) ->
  search_outcome h (search_kind q) (fun s => matches w (simple_name s)) (WithPredicate o (namespacePredicate scope)) count r ->
  answers h q o count r.
Proof.
  intros h q scope w o count [[l complete] count'] _ NLA NQ NM OK FB IK OWN (ND & S & C & L). split; [exact ND|]. split; [|split; [|split]].
  - intros x I. destruct (S x I) as (s & Cu & K & -> & SAT & d & s0 & Id & I0 & K0 & EK & M). exists s. split; [exact Cu|]. split; [exact K|]. split; [apply keep_shown|].
    intros ST. apply FB; [exact K|]. apply satisfies_scope in SAT as [_ SC]. rewrite keep_in_scope in SC. split; [|exact SC].
    rewrite <- (stable_key h OK ST d s0 s Id I0 Cu EK (IK s0 K0) (OWN s0 K0)). exact M.
  - intros _ x I. destruct (S x I) as (s & _ & _ & _ & SAT & _). apply satisfies_scope in SAT. apply SAT.
  - intros CT _ s Cu F [LA|SAT]; [contradiction|]. assert (K : kind_of s = search_kind q) by apply F.
    apply FB in F as [M SC]; [|exact K]. apply (C CT s Cu K M). apply satisfies_scope. split; [exact SAT|]. now apply keep_in_scope.
  - intros _. cbn [WithPredicate so_limit] in L. destruct (so_limit o); [|destruct L; auto]. destruct L as (L1 & L2 & L3). repeat (split; [tauto|]). tauto.
Qed.


Lemma outcome_plain : forall h k hit o count r, search_outcome h k hit o count r -> search_outcome h k hit (WithPredicate o (namespacePredicate [])) count r.
Proof.
  intros h k hit o count [[l complete] count'] (ND & S & C & L).
  assert (E : forall x, satisfies (WithPredicate o (namespacePredicate [])) x <-> satisfies o x).
  { intros x. rewrite satisfies_scope. split; [intros [H _]; exact H|]. intros H. split; [exact H|]. left. reflexivity. }
  split; [exact ND|]. split; [|split; [|exact L]].
  - intros x I. destruct (S x I) as (s & H1 & H2 & H3 & H4 & H5). exists s. repeat (split; [assumption|]). split; [apply E; exact H4|exact H5].
  - intros CT s Cu K H SAT. apply C; auto. now apply E.
Qed.

Ltac kinds := solve [intros s0; split; [destruct s0; simpl; try discriminate; eauto|intros [a0 ->]; reflexivity]].
Ltac index_ok := solve [intros a0; reflexivity | intros s0 n0 E0; destruct s0; simpl in E0; try discriminate E0; reflexivity].

Theorem search_answers : forall root h st q o count,
  Forall event_ok h -> run root h = Some st -> clean_names h -> covered_search h q ->
  (forall t, In t (search_texts q) -> ~ In NUL t /\ well_encoded t) ->
  exists r, do_search st q o count = Some r /\ answers h q o count r.
Proof.
  intros root h st q o count OK RUN CLEAN COV TX.
  assert (PLAIN : forall C, C <> propertyCollection -> C <> classConstCollection -> forall d1 d2 s1 s2, In d1 (synced_docs h) -> In d2 (synced_docs h) ->
    In s1 (d_symbols d1) -> In s2 (d_symbols d2) -> GetCollection s1 = C -> indexed_kind s1 -> indexed_kind s2 ->
    symbol_key s1 = symbol_key s2 -> d_uri d1 = d_uri d2) by (intros C; now apply (own_plain TOK)).
  assert (QU : forall k, let '(scope, w) := GetScopeAndNameFromString k in qualifier k scope w) by (intros; apply scope_and_name).
  assert (NS : forall q k, (q = FindInterfaces k \/ q = FindTraits k \/ q = FindFunctions k) -> forall scope w, qualifier k scope w ->
     forall s, kind_of s = search_kind q -> (found_by q s <-> matches w (simple_name s) /\ in_scope scope s)).
  { intros q' k E scope w Q s K. unfold found_by. assert (G : (kind_of s = search_kind q' /\ exists scope w, qualifier k scope w /\ matches w (simple_name s) /\ in_scope scope s)
       <-> matches w (simple_name s) /\ in_scope scope s).
    { split.
      - intros (_ & sc & w' & Q' & M & I). destruct (qualifier_functional _ _ _ _ _ Q Q') as [-> ->]. auto.
      - intros [M I]. split; [exact K|]. exists scope, w. auto. }
    destruct E as [->|[->| ->]]; exact G. }
  destruct q as [k|k|k|k|k|k|c k|c k|c k]; cbn [do_search search_texts] in *.
  - destruct (TX k (or_introl eq_refl)) as [NK WK]. specialize (QU k). unfold SearchClasses. destruct (GetScopeAndNameFromString k) as [scope w].
    destruct (qualifier_word k scope w QU WK NK) as (WW & NW & NSC).
    destruct scope as [|b scope].
    + destruct (search_index_spec TOK _ SClass ReadClass (fun a => a) classCollection classCompletionIndex KClass true root h st) with (w := w) (o := WithPredicate o (namespacePredicate [])) (count := count)
        as (r & E & A); try (nul_free || discriminate || kinds || index_ok || assumption).
      * intros a u (H & _). rewrite <- (app_nil_r (Serialise _)). now apply class_roundtrip.
      * apply PLAIN; discriminate.
      * exists r. split; [exact E|].
        assert (NQ : ~ qualified_class (FindClasses k)).
        { destruct QU as [(N1 & N2 & _ & _)|[(_ & Q & _)|(ns & _ & _ & Q)]]; try discriminate Q. intros [Q|Q]; contradiction. }
        apply (outcome_answers h (FindClasses k) [] w); auto.
        -- discriminate.
        -- intros s K. cbn [found_by]. unfold found_by. split.
           ++ intros (_ & sc & w' & Q' & D). destruct (qualifier_functional _ _ _ _ _ QU Q') as [<- <-].
              destruct D as [(_ & M)|(D & _)]; [|congruence]. split; [exact M|left; reflexivity].
           ++ intros [M _]. split; [exact K|]. exists [], w. split; [exact QU|]. left. auto.
        -- intros s K. destruct s; try discriminate K. exact I.
        -- intros s0 K. apply PLAIN; destruct s0; discriminate.
    + destruct (scoped_classes_spec TOK root h st (b :: scope) w o count OK RUN ltac:(discriminate) NSC) as (l & count' & E & ND & S & C & L).
      rewrite E. eexists. split; [reflexivity|]. split; [exact ND|]. split; [|split; [|split]].
      * intros x I. destruct (S x I) as (s & Cu & K & -> & SAT & H1 & H2). exists s. split; [exact Cu|]. split; [exact K|]. split; [apply keep_shown|].
        intros _. split; [exact K|]. exists (b :: scope), w. split; [exact QU|]. right. split; [discriminate|auto].
      * intros _ x I. destruct (S x I) as (s & _ & _ & _ & SAT & _). exact SAT.
      * intros _ NL s Cu (K & sc & w' & Q' & D) [[]|SAT]. destruct (qualifier_functional _ _ _ _ _ QU Q') as [<- <-].
        destruct D as [(D & _)|(_ & D)]; [discriminate D|].
        apply C; auto. apply NL. destruct QU as [(_ & _ & Q & _)|[(-> & _)|(ns & _ & -> & _)]]; [discriminate Q|left; reflexivity|].
        right. apply in_or_app. right. left. reflexivity.
      * intros _. destruct (so_limit o); [|auto]. destruct L as [L1 L2]. split; [exact L1|]. split; [exact L2|]. split; [|auto]. intros _ NQ. destruct NQ.
        destruct QU as [(_ & _ & Q & _)|[(-> & _)|(ns & _ & -> & _)]]; [discriminate Q|left; reflexivity|right; apply in_or_app; right; left; reflexivity].
  - destruct (TX k (or_introl eq_refl)) as [NK WK]. specialize (QU k). unfold SearchInterfaces. destruct (GetScopeAndNameFromString k) as [scope w].
    destruct (qualifier_word k scope w QU WK NK) as (WW & NW & NSC).
    destruct (search_index_spec TOK _ SInterface ReadInterface (fun s => Interface (i_location s) zero_loc (i_description s) (i_deprecated s) (i_name s) (i_extends s)) interfaceCollection interfaceCompletionIndex KInterface false root h st) with (w := w) (o := WithPredicate o (namespacePredicate scope)) (count := count)
        as (r & E & A); try (nul_free || discriminate || kinds || index_ok || assumption).
    + intros a u (H & _). rewrite <- (app_nil_r (Serialise _)). now apply interface_roundtrip.
    + apply PLAIN; discriminate.
    + exists r. split; [exact E|]. apply (outcome_answers h (FindInterfaces k) scope w); auto; try discriminate.
      * apply (NS _ k); auto.
      * intros s K. destruct s; try discriminate K. exact I.
      * intros s0 K. apply PLAIN; destruct s0; discriminate.
  - destruct (TX k (or_introl eq_refl)) as [NK WK]. specialize (QU k). unfold SearchTraits. destruct (GetScopeAndNameFromString k) as [scope w].
    destruct (qualifier_word k scope w QU WK NK) as (WW & NW & NSC).
    destruct (search_index_spec TOK _ STrait ReadTrait (fun a => a) traitCollection traitCompletionIndex KTrait false root h st) with (w := w) (o := WithPredicate o (namespacePredicate scope)) (count := count)
        as (r & E & A); try (nul_free || discriminate || kinds || index_ok || assumption).
    + intros a u (H & _). rewrite <- (app_nil_r (Serialise _)). now apply trait_roundtrip.
    + apply PLAIN; discriminate.
    + exists r. split; [exact E|]. apply (outcome_answers h (FindTraits k) scope w); auto; try discriminate.
      * apply (NS _ k); auto.
      * intros s K. destruct s; try discriminate K. exact I.
      * intros s0 K. apply PLAIN; destruct s0; discriminate.
  - destruct (TX k (or_introl eq_refl)) as [NK WK]. specialize (QU k). unfold SearchFunctions. destruct (GetScopeAndNameFromString k) as [scope w].
    destruct (qualifier_word k scope w QU WK NK) as (WW & NW & NSC).
    destruct (search_index_spec TOK _ SFunction ReadFunction (fun s => Function (f_location s) zero_loc (f_name s) (map forget_param (f_params s)) (f_return s)
          (f_description s) (f_deprecated s)) functionCollection functionCompletionIndex KFunction true root h st) with (w := w) (o := WithPredicate o (namespacePredicate scope)) (count := count)
        as (r & E & A); try (nul_free || discriminate || kinds || index_ok || assumption).
    + intros a u (H & _). rewrite <- (app_nil_r (Serialise _)). now apply function_roundtrip.
    + apply PLAIN; discriminate.
    + exists r. split; [exact E|]. apply (outcome_answers h (FindFunctions k) scope w); auto; try discriminate.
      * apply (NS _ k); auto.
      * intros s K. destruct s; try discriminate K. exact I.
      * intros s0 K. apply PLAIN; destruct s0; discriminate.
  - destruct (TX k (or_introl eq_refl)) as [NK WK]. unfold SearchConsts.
    destruct (search_index_spec TOK _ SConst ReadConst (fun a => a) constCollection constCompletionIndex KConst false root h st) with (w := k) (o := o) (count := count)
        as (r & E & A); try (nul_free || discriminate || kinds || index_ok || assumption).
    + intros a u (H & _). rewrite <- (app_nil_r (Serialise _)). now apply const_roundtrip.
    + apply PLAIN; discriminate.
    + exists r. split; [exact E|]. apply (outcome_answers h (FindConsts k) [] k); auto; try discriminate.
      * intros s K. unfold found_by. split; [intros [_ M]; split; [exact M|left; reflexivity]|intros [M _]; auto].
      * intros s K. destruct s; try discriminate K. exact I.
      * intros s0 K. apply PLAIN; destruct s0; discriminate.
      * apply outcome_plain. exact A.
  - destruct (TX k (or_introl eq_refl)) as [NK WK]. unfold SearchDefines.
    destruct (search_index_spec TOK _ SDefine ReadDefine (fun a => a) defineCollection defineCompletionIndex KDefine false root h st) with (w := k) (o := o) (count := count)
        as (r & E & A); try (nul_free || discriminate || kinds || index_ok || assumption).
    + intros a u (H & _). rewrite <- (app_nil_r (Serialise _)). now apply define_roundtrip.
    + apply PLAIN; discriminate.
    + exists r. split; [exact E|]. apply (outcome_answers h (FindDefines k) [] k); auto; try discriminate.
      * intros s K. unfold found_by. split; [intros [_ M]; split; [exact M|left; reflexivity]|intros [M _]; auto].
      * intros s K. destruct s; try discriminate K. exact I.
      * intros s0 K. apply PLAIN; destruct s0; discriminate.
      * apply outcome_plain. exact A.
  - destruct (TX k (or_intror (or_introl eq_refl))) as [NK WK]. destruct k as [|b k].
    + eexists. split; [reflexivity|]. split; [constructor|]. split; [intros x []|]. split; [intros _ x []|]. split; [discriminate|].
      intros _. destruct (so_limit o); cbn [length]; [split; [lia|]; split; [lia|]; split; [intros H; now destruct (H c)|intros []]|]. split; [reflexivity|]. intros H. now destruct (H c).
    + unfold SearchMethods. set (k' := b :: k) in *.
      destruct (search_index_spec TOK _ SMethod ReadMethod (fun s => Method (m_location s) zero_loc (m_name s) (map forget_param (m_params s)) (m_return s)
          (m_description s) (m_scope s) (m_visibility s) (m_static s) (m_classmodifier s) (m_deprecated s)) methodCollection methodCompletionIndex KMethod true root h st) with (w := k') (o := WithPredicate o (namespacePredicate c)) (count := count)
        as (r & E & A); try (nul_free || discriminate || kinds || index_ok || assumption).
      * intros a u (H & _). rewrite <- (app_nil_r (Serialise _)). now apply method_roundtrip.
      * apply PLAIN; discriminate.
      * exists r. split; [exact E|]. apply (outcome_answers h (FindMethods c k') c k'); auto; try discriminate.
        -- intros s K. unfold found_by. split; [intros (_ & _ & M & I); auto|intros [M I]; split; [exact K|]; split; [discriminate|auto]].
        -- intros s K. destruct s; try discriminate K. exact I.
        -- intros s0 K. apply PLAIN; destruct s0; discriminate.
  - destruct (TX k (or_intror (or_introl eq_refl))) as [NK WK]. destruct (TX c (or_introl eq_refl)) as [NC _]. cbn [covered_search] in COV. destruct k as [|b k].
    + destruct (kind_exact TOK _ SClassConst ReadClassConst (fun s => ClassConst zero_loc (cc_location s) (cc_description s) (cc_name s) (cc_value s) (cc_scope s)
          Public (cc_deprecated s)) classConstCollection root h st (QAllClassConsts c) (c ++ KeySep)) as (l & E & ND & EX); auto; try (nul_free || discriminate || kinds).
      * intros a u (H & _). rewrite <- (app_nil_r (Serialise _)). now apply class_const_roundtrip.
      * congruence.
      * now apply (own_const TOK).
      * intros a Cu. unfold symbol_key. cbn [GetKey GetCollection wanted]. rewrite prefix_sep; [reflexivity|auto|].
        destruct (current_names TOK h _ OK Cu) as [_ CN]. apply CN. left. reflexivity.
      * intros s W. destruct s; simpl in W; try contradiction; eauto.
      * unfold SearchClassConsts, GetAllClassConsts. destruct (get_all _ _ _) as [l0|]; [|discriminate]. injection E as <-.
        eexists. split; [reflexivity|]. split; [exact ND|]. split; [|split; [|split]].
        -- intros x I. apply EX in I as (s & Cu & W & ->). exists s. split; [exact Cu|]. destruct s as [s|s|s|s|s|s|s|s|s|s]; try contradiction W.
           split; [reflexivity|]. split; [apply keep_shown|]. intros _. split; [reflexivity|]. left. split; [reflexivity|]. cbn in W |- *. now rewrite W.
        -- intros NL. destruct NL. exact I.
        -- intros _ _ s Cu (K & D) _. apply EX. exists s. split; [exact Cu|]. split; [|reflexivity]. destruct s as [s|s|s|s|s|s|s|s|s|s]; try discriminate K.
           destruct D as [[_ D]|[D _]]; [|congruence]. cbn in D |- *. congruence.
        -- intros NL. destruct NL. exact I.
    + unfold SearchClassConsts. set (k' := b :: k) in *.
      destruct (search_index_spec TOK _ SClassConst ReadClassConst (fun s => ClassConst zero_loc (cc_location s) (cc_description s) (cc_name s) (cc_value s) (cc_scope s)
          Public (cc_deprecated s)) classConstCollection classConstCompletionIndex KClassConst false root h st) with (w := k') (o := WithPredicate o (namespacePredicate c)) (count := count)
        as (r & E & A); try (nul_free || discriminate || kinds || index_ok || assumption).
      * intros a u (H & _). rewrite <- (app_nil_r (Serialise _)). now apply class_const_roundtrip.
      * now apply (own_const TOK).
      * exists r. split; [exact E|]. apply (outcome_answers h (FindClassConsts c k') c k'); auto; try discriminate.
        -- intros s K. unfold found_by. split; [intros (_ & [[D _]|(_ & M & I)]); [discriminate D|auto]|intros [M I]; split; [exact K|]; right; split; [discriminate|auto]].
        -- intros s K. destruct s; try discriminate K. exact I.
        -- intros s0 K. destruct s0; try discriminate K. now apply (own_const TOK).
  - destruct (TX k (or_intror (or_introl eq_refl))) as [NK WK]. destruct (TX c (or_introl eq_refl)) as [NC _]. cbn [covered_search] in COV. destruct k as [|b k].
    + destruct (kind_exact TOK _ SProperty ReadProperty (fun s => Property (pr_location s) zero_loc (pr_description s) (pr_deprecated s) (pr_name s)
          (pr_scope s) (pr_visibility s) (pr_static s) (pr_types s)) propertyCollection root h st (QAllProperties c) (c ++ KeySep)) as (l & E & ND & EX); auto; try (nul_free || discriminate || kinds).
      * intros a u (H & _). rewrite <- (app_nil_r (Serialise _)). now apply property_roundtrip.
      * congruence.
      * now apply (own_property TOK).
      * intros a Cu. unfold symbol_key. cbn [GetKey GetCollection wanted]. rewrite prefix_sep; [reflexivity|auto|].
        destruct (current_names TOK h _ OK Cu) as [_ CN]. apply CN. left. reflexivity.
      * intros s W. destruct s; simpl in W; try contradiction; eauto.
      * unfold SearchProperties, GetAllProperties. destruct (get_all _ _ _) as [l0|]; [|discriminate]. injection E as <-.
        eexists. split; [reflexivity|]. split; [exact ND|]. split; [|split; [|split]].
        -- intros x I. apply EX in I as (s & Cu & W & ->). exists s. split; [exact Cu|]. destruct s as [s|s|s|s|s|s|s|s|s|s]; try contradiction W.
           split; [reflexivity|]. split; [apply keep_shown|]. intros _. split; [reflexivity|]. left. split; [reflexivity|]. cbn in W |- *. now rewrite W.
        -- intros NL. destruct NL. exact I.
        -- intros _ _ s Cu (K & D) _. apply EX. exists s. split; [exact Cu|]. split; [|reflexivity]. destruct s as [s|s|s|s|s|s|s|s|s|s]; try discriminate K.
           destruct D as [[_ D]|[D _]]; [|congruence]. cbn in D |- *. congruence.
        -- intros NL. destruct NL. exact I.
    + unfold SearchProperties. set (k' := b :: k) in *.
      destruct (search_index_spec TOK _ SProperty ReadProperty (fun s => Property (pr_location s) zero_loc (pr_description s) (pr_deprecated s) (pr_name s)
          (pr_scope s) (pr_visibility s) (pr_static s) (pr_types s)) propertyCollection propertyCompletionIndex KProperty false root h st) with (w := k') (o := WithPredicate o (namespacePredicate c)) (count := count)
        as (r & E & A); try (nul_free || discriminate || kinds || index_ok || assumption).
      * intros a u (H & _). rewrite <- (app_nil_r (Serialise _)). now apply property_roundtrip.
      * now apply (own_property TOK).
      * exists r. split; [exact E|]. apply (outcome_answers h (FindProperties c k') c k'); auto; try discriminate.
        -- intros s K. unfold found_by. split; [intros (_ & [[D _]|(_ & M & I)]); [discriminate D|auto]|intros [M I]; split; [exact K|]; right; split; [discriminate|auto]].
        -- intros s K. destruct s; try discriminate K. exact I.
        -- intros s0 K. destruct s0; try discriminate K. now apply (own_property TOK).
Qed.
End S.
