From Coq Require Import String.
From Coq Require Import List Bool NArith ZArith Lia.
From Coq.Strings Require Import Byte.
From Verif Require Import Base.Bytes Base.BytesProofs Base.Protocol Base.Decimal Base.Utf8
  Codec.CodecModel Codec.CodecSpec Codec.SymbolCodecSpec Codec.CodecProofs Symbols.Symbols Symbols.KeysModel Words.TokeniserModel Words.TokeniserSpec Words.TokeniserProofs
  Storage.KvModel Storage.KvSpec Storage.KvProofs Store.FilterModel Store.StoreModel Store.StoreSpec Store.StoreProofs Store.LookupKinds
  Store.StoreTheorems Store.SearchModel Store.SearchSpec Store.SearchProofs Store.SearchTheorems Store.NamespaceProofs Types.TypesModel
  Completion.CompletionModel Completion.CompletionSpec.
Import ListNotations.
Open Scope list_scope.

Section P.
Context {T : Text} {X : XorFilter}.
Hypothesis TOK : text_ok T.

Lemma namespaces_total : forall root h st k, Forall event_ok h -> run root h = Some st -> clean_namespaces h ->
  well_encoded k -> ~ In NUL k -> exists l, SearchNamespaces st k = Some (l, true).
Proof.
  intros root h st k OK RUN CLEAN WE NK. unfold SearchNamespaces. assert (Q := scope_and_name k). destruct (GetScopeAndNameFromString k) as [scope w].
  destruct (qualifier_word k scope w Q WE NK) as (WW & NW & _). cbv zeta.
  set (coll := match _ with [] => namespaceCompletionIndex | _ => _ end).
  destruct (com_content root h st RUN) as (CS & _). assert (ASC := com_ascending _ _ _ RUN).
  destruct (Tokenise_ok is_upper is_digit w WW) as (words & TW & _).
  unfold searchCompletions, tokenise. rewrite TW, com_words_visits.
  assert (PRE : forall x, exists r, newEntry coll x = newEntry namespaceCompletionIndex r).
  { intros x. unfold coll. destruct (if str_eqb scope [BSL] then [] else scope) as [|b s]; [eauto|]. unfold newEntry. rewrite <- !app_assoc. eauto. }
  destruct (visits_collect (fun cv => hd [] (split_byte cv NUL)) (visited (s_com st) coll words) [] []) as (seen & l & V & _).
  { intros ek v I. apply in_flat_map in I as (x & Ix & I). apply filter_In in I as [I P]. cbn [fst] in P.
    apply (kv_get_in _ _ _ ASC) in I. destruct (PRE (to_lower x)) as [r' E]. rewrite E in P.
    destruct (CS ek v I) as (d & Id & CP). destruct CP as [s c name t Is HK IX Ht|ns i scope' part t I1 I2 I3|r v'].
    - exfalso. assert (CN' : ~ In NUL c) by (destruct s; cbn in IX; try discriminate; injection IX as <- _; nul_free).
      apply prefix_coll in P as [E' _]; [|nul_free|assumption]. destruct s; cbn in IX; try discriminate; injection IX as <- _; discriminate.
    - destruct (CLEAN d ns Id I1) as (ps & NP & GL). destruct (indexables_levels ns ps NP) as [KE LV].
      rewrite LV in I2. destruct (nth_error ps i) as [p|] eqn:NE; [|discriminate]. do 2 eexists.
      unfold ns_key. rewrite KE. unfold NewEncoder. rewrite WriteString_app. cbn [app]. rewrite <- (app_nil_r (bytes_enc _)). apply rt_bytes.
      apply GL. apply nth_error_Some. congruence.
    - exfalso. apply prefix_coll in P as [E' _]; [discriminate|nul_free|nul_free]. }
  exists l. exact (f_equal (fun r => match r with Some (_, s', stop) => Some (s', negb stop) | None => None end) V).
Qed.

(** ** Several searches with one limiter *)
Fixpoint chain (st : store) (qs : list search) (count : Z) : option (list (search * list symbol * bool) * Z) :=
  match qs with
  | [] => Some ([], count)
  | q :: qs =>
      match do_search st q baseSearchOptions count with
      | None => None
      | Some (l, complete, count') =>
          match chain st qs count' with
          | None => None
          | Some (rs, n) => Some ((q, l, complete) :: rs, n)
          end
      end
  end.
Definition total (rs : list (search * list symbol * bool)) : list symbol := flat_map (fun r => snd (fst r)) rs.
Definition plain (h : list event) (q : search) : Prop :=
  covered_search h q /\ (forall t, In t (search_texts q) -> ~ In NUL t /\ well_encoded t) /\ ~ lists_all q /\ (forall c, q <> FindMethods c []).

Lemma chain_spec : forall root h st, Forall event_ok h -> run root h = Some st -> clean_names h ->
  forall qs count, (forall q, In q qs -> plain h q) ->
  exists rs n, chain st qs count = Some (rs, n)
  /\ n = (count + Z.of_nat (length (total rs)))%Z
  /\ (n <= Z.max (count + Z.of_nat (length qs)) (1000 + Z.of_nat (length qs) - 1))%Z
  /\ map (fun r => fst (fst r)) rs = qs
  /\ (forall q l c, In (q, l, c) rs -> forall x, In x l -> exists s, current h s /\ kind_of s = search_kind q /\ shown s x /\ (stable_names h -> found_by q s))
  /\ ((n < 1000)%Z -> forall q l c, In (q, l, c) rs -> c = true /\ forall s, current h s -> found_by q s -> In (keep s) l)
  /\ (forall q l c, In (q, l, c) rs -> (l = [] -> c = true) /\ (c = true -> ~ qualified_class q -> forall s, current h s -> found_by q s -> In (keep s) l)).
Proof.
  intros root h st OK RUN CL. induction qs as [|q qs IH]; intros count PL.
  { exists [], count. cbn. split; [reflexivity|]. split; [lia|]. split; [lia|]. split; [reflexivity|]. split; [intros q l c []|]. split; [intros _ q l c []|]. intros q l c []. }
  destruct (PL q (or_introl eq_refl)) as (CV & TX & NL & NM).
  destruct (search_answers TOK root h st q baseSearchOptions count OK RUN CL CV TX) as ([[l c] count'] & E & ND & S & _ & C & L).
  destruct (IH count' (fun q' I => PL q' (or_intror I))) as (rs & n & E' & N & B & M & S' & C' & D').
  exists ((q, l, c) :: rs), n. cbn [chain]. rewrite E, E'. specialize (L NL). cbn [baseSearchOptions WithLimit so_limit] in L. destruct L as (L1 & L2 & L3 & L4).
  split; [reflexivity|]. cbn [total flat_map fst snd map length]. rewrite app_length. fold (total rs). split; [lia|]. split; [lia|]. split; [now rewrite M|]. split; [|split].
  - intros q' l' c' [I|I]; [injection I as <- <- <-; exact S|exact (S' q' l' c' I)].
  - intros NN q' l' c' [I|I]; [injection I as <- <- <-|exact (C' NN q' l' c' I)].
    assert (LT : (count' < 1000)%Z) by lia.
    assert (CT : c = true).
    { destruct q as [k|k|k|k|k|k|a k|a k|a k]; try (apply L3; [exact NM|cbn; tauto|right; exact LT]).
      destruct k as [|b k]; [apply L4; left; reflexivity|]. destruct (in_dec Byte.byte_eq_dec BSL (b :: k)) as [I|I]; [apply L4; right; exact I|].
      apply L3; [exact NM|intros [J|J]; [discriminate J|contradiction]|right; exact LT]. }
    split; [exact CT|]. intros s Cu F. apply (C CT); [intros _; right; exact LT|exact Cu|exact F|]. right. intros p [].
  - intros q' l' c' [I|I]; [injection I as <- <- <-|exact (D' q' l' c' I)]. split.
    + intros ->. destruct q as [k|k|k|k|k|k|a k|a k|a k]; try (apply L3; [exact NM|cbn; tauto|left; reflexivity]).
      destruct k as [|b k]; [apply L4; left; reflexivity|]. destruct (in_dec Byte.byte_eq_dec BSL (b :: k)) as [I|I]; [apply L4; right; exact I|].
      apply L3; [exact NM|intros [J|J]; [discriminate J|contradiction]|left; reflexivity].
    + intros CT NQ s Cu F. apply (C CT); [intros K; contradiction|exact Cu|exact F|]. right. intros p [].
Qed.

(** ** The completion lists *)
Lemma last_default : forall (l : list bool) (x d e : bool), last (x :: l) d = last (x :: l) e.
Proof. induction l as [|y l IH]; intros x d e; [reflexivity|]. exact (IH y d e). Qed.
Lemma last_more : forall (l : list bool) (x d : bool), last (x :: l) d = last l x.
Proof. destruct l as [|y l]; intros x d; [reflexivity|]. exact (last_default l y d x). Qed.
Definition last_flag (d : bool) (rs : list (search * list symbol * bool)) : bool := last (map (fun r => negb (snd r)) rs) d.
Lemma chain_state : forall st word (qs : list ((store -> gostr -> search_options -> Z -> option outcome) * search)),
  (forall f q, In (f, q) qs -> forall count, f st word baseSearchOptions count = do_search st q baseSearchOptions count) ->
  forall cl count rs n, chain st (map snd qs) count = Some (rs, n) ->
  fold_left (fun acc fq => and_search (fst fq) st word acc) qs (Some (cl, count))
  = Some (CompletionList (cl_items cl ++ map PSymbol (total rs)) (last_flag (cl_incomplete cl) rs), n).
Proof.
  intros st word. induction qs as [|[f q] qs IH]; intros H cl count rs n E.
  - cbn in E. injection E as <- <-. cbn. destruct cl. cbn. rewrite app_nil_r. reflexivity.
  - cbn [map chain snd] in E. cbn [fold_left fst]. unfold and_search at 2. rewrite (H f q (or_introl eq_refl)).
    destruct (do_search st q baseSearchOptions count) as [[[l c] count']|]; [|discriminate E].
    destruct (chain st (map snd qs) count') as [[rs' n']|] eqn:E'; [|discriminate E]. injection E as <- <-.
    rewrite (IH (fun f q I => H f q (or_intror I)) _ _ _ _ E'). cbn [cl_items cl_incomplete total flat_map fst snd]. fold (total rs'). rewrite map_app, <- app_assoc. do 3 f_equal.
    unfold last_flag. cbn [map snd]. symmetry. apply last_more.
Qed.
Lemma symbols_app : forall a b c d, symbols (CompletionList (a ++ b) c) = symbols (CompletionList a d) ++ symbols (CompletionList b d).
Proof. intros. unfold symbols. cbn. apply flat_map_app. Qed.
Lemma symbols_map : forall l c, symbols (CompletionList (map PSymbol l) c) = l.
Proof. intros l c. unfold symbols. cbn. induction l as [|x l IH]; [reflexivity|]. cbn. now rewrite IH. Qed.
Lemma symbols_none : forall (l : list gostr) f c, symbols (CompletionList (map (fun ns => PNamespace ns (f ns)) l) c) = [].
Proof. intros l f c. unfold symbols. cbn. induction l as [|x l IH]; [reflexivity|]. exact IH. Qed.

Lemma complete_spec : forall root h st c word, Forall event_ok h -> run root h = Some st -> clean_names h -> clean_namespaces h ->
  ~ In NUL word -> well_encoded word ->
  (forall q, In q (searches c word) -> plain h q) /\
  exists cl rs n, complete c st word = Some cl /\ chain st (searches c word) 0 = Some (rs, n) /\ symbols cl = total rs /\ cl_incomplete cl = last_flag true rs.
Proof.
  intros root h st c word OK RUN CL CN NW WE.
  assert (NS := namespaces_total root h st word OK RUN CN WE NW). destruct NS as [nl NS].
  assert (PL : forall q, In q (searches c word) -> plain h q).
  { intros q I. assert (TX : forall t, In t [word] -> ~ In NUL t /\ well_encoded t) by (intros t [<-|[]]; auto).
    destruct c; cbn in I; repeat (destruct I as [<-|I]; [unfold plain; cbn; repeat split; auto; try apply TX; auto; try discriminate|]); destruct I. }
  split; [exact PL|]. destruct (chain_spec root h st OK RUN CL (searches c word) 0%Z PL) as (rs & n & E & _ & _ & M & _).
  assert (NSP : forall cl count, exists ns, and_namespaces st word (Some (cl, count)) = Some (CompletionList (cl_items cl ++ map (fun x => PNamespace x (namespaceDiff x word)) ns) (cl_incomplete cl), count)).
  { intros cl count. unfold and_namespaces. destruct (IsFQN word); [rewrite NS; eauto|]. exists []. cbn. rewrite app_nil_r. destruct cl. reflexivity. }
  assert (LF : forall d, rs <> [] -> last_flag d rs = last_flag true rs).
  { intros d NE. unfold last_flag. destruct rs as [|r rs]; [congruence|]. cbn [map]. generalize (negb (snd r)) (map (fun r => negb (snd r)) rs). clear. intros b l. revert b. induction l as [|x l IH]; intros b; [reflexivity|]. exact (IH x). }
  assert (RN : rs <> []) by (intros ->; destruct c; discriminate M).
  assert (G : forall d (qs : list ((store -> gostr -> search_options -> Z -> option outcome) * search)), map snd qs = searches c word ->
     (forall f q, In (f, q) qs -> forall count, f st word baseSearchOptions count = do_search st q baseSearchOptions count) ->
     fold_left (fun acc fq => and_search (fst fq) st word acc) qs (start d) = Some (CompletionList (map PSymbol (total rs)) (last_flag true rs), n)).
  { intros d qs MQ H. unfold start. rewrite <- MQ in E. rewrite (chain_state st word qs H _ _ _ _ E). cbn [cl_items app cl_incomplete]. now rewrite (LF d RN). }
  destruct c; cbn [complete searches] in *.
  - unfold nameCompletion. specialize (G true [(SearchClasses, FindClasses word); (SearchInterfaces, FindInterfaces word); (SearchConsts, FindConsts word); (SearchDefines, FindDefines word); (SearchFunctions, FindFunctions word)] eq_refl).
    cbn [fold_left fst] in G. rewrite G by (intros f q I count; repeat (destruct I as [I|I]; [injection I as <- <-; reflexivity|]); destruct I).
    destruct (NSP (CompletionList (map PSymbol (total rs)) (last_flag true rs)) n) as [ns ->]. cbn [finish option_map fst]. do 3 eexists. split; [reflexivity|]. split; [exact E|]. cbn [cl_items cl_incomplete]. split; [|reflexivity].
    rewrite (symbols_app _ _ _ true), symbols_map, symbols_none. apply app_nil_r.
  - unfold classCompletion. specialize (G false [(SearchClasses, FindClasses word)] eq_refl). cbn [fold_left fst] in G. rewrite G by (intros f q [I|[]] count; injection I as <- <-; reflexivity).
    cbn [finish option_map fst]. do 3 eexists. split; [reflexivity|]. split; [exact E|]. split; [apply symbols_map|reflexivity].
  - unfold typeCompletion. specialize (G true [(SearchClasses, FindClasses word); (SearchInterfaces, FindInterfaces word)] eq_refl).
    cbn [fold_left fst] in G. rewrite G by (intros f q I count; repeat (destruct I as [I|I]; [injection I as <- <-; reflexivity|]); destruct I).
    destruct (NSP (CompletionList (map PSymbol (total rs)) (last_flag true rs)) n) as [ns ->]. cbn [finish option_map fst]. do 3 eexists. split; [reflexivity|]. split; [exact E|]. cbn [cl_items cl_incomplete]. split; [|reflexivity].
    rewrite (symbols_app _ _ _ true), symbols_map, symbols_none. apply app_nil_r.
  - unfold interfaceCompletion. specialize (G false [(SearchInterfaces, FindInterfaces word)] eq_refl). cbn [fold_left fst] in G. rewrite G by (intros f q [I|[]] count; injection I as <- <-; reflexivity).
    cbn [finish option_map fst]. do 3 eexists. split; [reflexivity|]. split; [exact E|]. split; [apply symbols_map|reflexivity].
  - unfold traitCompletion. specialize (G false [(SearchTraits, FindTraits word)] eq_refl). cbn [fold_left fst] in G. rewrite G by (intros f q [I|[]] count; injection I as <- <-; reflexivity).
    cbn [finish option_map fst]. do 3 eexists. split; [reflexivity|]. split; [exact E|]. split; [apply symbols_map|reflexivity].
Qed.

(** ** workspace/symbol *)
Lemma chain_ws : forall st word (qs : list ((store -> gostr -> search_options -> Z -> option outcome) * search)),
  (forall f q, In (f, q) qs -> forall count, f st word baseSearchOptions count = do_search st q baseSearchOptions count) ->
  forall infos count rs n, chain st (map snd qs) count = Some (rs, n) ->
  fold_left (fun acc fq => ws_search (fst fq) st word acc) qs (Some (infos, count)) = Some (infos ++ map toSymbolInformation (total rs), n).
Proof.
  intros st word. induction qs as [|[f q] qs IH]; intros H infos count rs n E.
  - cbn in E. injection E as <- <-. cbn. rewrite app_nil_r. reflexivity.
  - cbn [map chain snd] in E. cbn [fold_left fst]. unfold ws_search at 2. rewrite (H f q (or_introl eq_refl)).
    destruct (do_search st q baseSearchOptions count) as [[[l c] count']|]; [|discriminate E].
    destruct (chain st (map snd qs) count') as [[rs' n']|] eqn:E'; [|discriminate E]. injection E as <- <-.
    rewrite (IH (fun f q I => H f q (or_intror I)) _ _ _ _ E'). cbn [total flat_map fst snd]. fold (total rs'). rewrite map_app, <- app_assoc. reflexivity.
Qed.
Lemma ws_store_fold : forall word acc st, ws_store word acc st
  = fold_left (fun acc fq => ws_search (fst fq) st word acc)
      [(SearchClasses, FindClasses word); (SearchConsts, FindConsts word); ((fun st => SearchClassConsts st []), FindClassConsts [] word);
       (SearchDefines, FindDefines word); (SearchFunctions, FindFunctions word); (SearchInterfaces, FindInterfaces word);
       ((fun st => SearchMethods st []), FindMethods [] word); ((fun st => SearchProperties st []), FindProperties [] word); (SearchTraits, FindTraits word)] acc.
Proof. reflexivity. Qed.

Lemma shown_entry : forall s x, shown s x -> kind_of s <> KGlobalVariable -> entry_of s (toSymbolInformation x).
Proof.
  intros s x H K. destruct s; cbn in *; try (subst x; reflexivity); try congruence;
    destruct x; try discriminate H; unfold interface_same, function_same, method_same, class_const_same_but_visibility, property_same in H;
    decompose [and] H; cbn; congruence.
Qed.

Lemma workspace_plain : forall h word, plain_uris h -> no_shared_constants h -> word <> [] -> ~ In NUL word -> well_encoded word ->
  forall q, In q (workspace_searches word) -> plain h q.
Proof.
  intros h word PU NC NE NW WE q I. destruct word as [|b word]; [congruence|].
  assert (TX : forall t, In t [b :: word] -> ~ In NUL t /\ well_encoded t) by (intros t [<-|[]]; auto).
  assert (TX' : forall t, In t [[]; b :: word] -> ~ In NUL t /\ well_encoded t).
  { intros t [<-|[<-|[]]]; auto. split; [intros []|]. intros i r []. }
  unfold workspace_searches in I.
  repeat (destruct I as [<-|I]; [split; [cbn; auto|split; [first [exact TX|exact TX']|split; [cbn; auto|discriminate]]]|]); destruct I.
Qed.

Definition store_of (f : gostr * list event * store) : store := snd f.
Definition history_of (f : gostr * list event * store) : list event := snd (fst f).

Lemma workspace_fold : forall word, word <> [] -> ~ In NUL word -> well_encoded word -> forall fs, Forall folder fs ->
  forall infos count, exists new n, fold_left (ws_store word) (map store_of fs) (Some (infos, count)) = Some (infos ++ new, n)
  /\ n = (count + Z.of_nat (length new))%Z
  /\ (n <= Z.max count 999 + 9 * Z.of_nat (length fs))%Z
  /\ (forall i, In i new -> exists f q s, In f fs /\ In q (workspace_searches word) /\ current (history_of f) s /\ kind_of s = search_kind q
        /\ entry_of s i /\ (stable_names (history_of f) -> found_by q s))
  /\ ((n < 1000)%Z -> forall f q s, In f fs -> In q (workspace_searches word) -> current (history_of f) s -> found_by q s -> exists i, In i new /\ entry_of s i).
Proof.
  intros word NE NW WE. induction fs as [|[[root h] st] fs IH]; intros FO infos count.
  { exists [], count. cbn [map fold_left length]. rewrite app_nil_r. split; [reflexivity|]. split; [cbn; lia|]. split; [lia|]. split; [intros i []|intros _ f q s []]. }
  inversion FO as [|? ? FO1 FO']; subst. destruct FO1 as (OK & RUN & CL & PU & NC).
  assert (PL := workspace_plain h word PU NC NE NW WE).
  destruct (chain_spec root h st OK RUN CL (workspace_searches word) count PL) as (rs & n & E & N & Bd & M & S & C & _).
  destruct (IH FO' (infos ++ map toSymbolInformation (total rs)) n) as (new & n' & E' & N' & B' & S' & C').
  exists (map toSymbolInformation (total rs) ++ new), n'. cbn [map fold_left]. change (store_of (root, h, st)) with st. split.
  { rewrite ws_store_fold. rewrite (chain_ws st word _) with (rs := rs) (n := n); [|intros f q I c; repeat (destruct I as [I|I]; [injection I as <- <-; reflexivity|]); destruct I|exact E].
    rewrite E'. now rewrite app_assoc. }
  assert (KG : forall q (s : symbol), In q (workspace_searches word) -> kind_of s = search_kind q -> kind_of s <> KGlobalVariable).
  { intros q s I K. rewrite K. destruct q; discriminate. }
  rewrite app_length, map_length. split; [lia|]. split; [cbn [length workspace_searches] in *; lia|]. split.
  - intros i I. apply in_app_or in I as [I|I].
    + apply in_map_iff in I as (x & <- & I). apply in_flat_map in I as ([[q l] c] & I & J). cbn [fst snd] in J.
      destruct (S q l c I x J) as (s & Cu & K & SH & F). assert (Iq : In q (workspace_searches word)) by (rewrite <- M; apply in_map_iff; exists (q, l, c); auto).
      exists (root, h, st), q, s. split; [left; reflexivity|]. split; [exact Iq|]. split; [exact Cu|]. split; [exact K|]. split; [apply shown_entry; [exact SH|exact (KG q s Iq K)]|exact F].
    + destruct (S' i I) as (f & q & s & If & R). exists f, q, s. split; [right; exact If|exact R].
  - intros LT f q s [<-|If] Iq Cu F.
    + cbn [history_of fst snd] in Cu. assert (Iq' := Iq). rewrite <- M in Iq'. apply in_map_iff in Iq' as ([[q' l] c] & Eq & Ir). cbn [fst] in Eq. subst q'.
      destruct (C ltac:(lia) q l c Ir) as [_ C2]. exists (toSymbolInformation (keep s)). split.
      * apply in_or_app. left. apply in_map. apply in_flat_map. exists (q, l, c). split; [exact Ir|]. exact (C2 s Cu F).
      * apply shown_entry; [apply keep_shown|]. apply (KG q s Iq). exact (proj1 F).
    + destruct (C' LT f q s If Iq Cu F) as (i & I & En). exists i. split; [apply in_or_app; right; exact I|exact En].
Qed.

(** ** Namespace entries *)
Definition diffs (word : gostr) (acc : state) : Prop := forall cl n label ins, acc = Some (cl, n) -> In (PNamespace label ins) (cl_items cl) -> ins = namespaceDiff label word.
Lemma diffs_start : forall word b, diffs word (start b).
Proof. intros word b cl n label ins E I. injection E as <- <-. destruct I. Qed.
Lemma diffs_search : forall f st word acc, diffs word acc -> diffs word (and_search f st word acc).
Proof.
  intros f st word [[cl0 n0]|] D cl n label ins E I; [|discriminate E]. cbn [and_search] in E.
  destruct (f st word baseSearchOptions n0) as [[[l c] n1]|]; [|discriminate E]. injection E as <- <-. cbn [cl_items] in I.
  apply in_app_or in I as [I|I]; [exact (D _ _ _ _ eq_refl I)|]. apply in_map_iff in I as (x & Ex & _). discriminate Ex.
Qed.
Lemma diffs_namespaces : forall st word acc, diffs word acc -> diffs word (and_namespaces st word acc).
Proof.
  intros st word [[cl0 n0]|] D cl n label ins E I; [|discriminate E]. cbn [and_namespaces] in E.
  destruct (IsFQN word); [|exact (D _ _ _ _ E I)].
  destruct (SearchNamespaces st word) as [[l c]|]; [|discriminate E]. injection E as <- <-. cbn [cl_items] in I.
  apply in_app_or in I as [I|I]; [exact (D _ _ _ _ eq_refl I)|]. apply in_map_iff in I as (x & Ex & _). injection Ex as <- <-. reflexivity.
Qed.
Lemma complete_diffs : forall c st word cl label ins, complete c st word = Some cl -> In (PNamespace label ins) (cl_items cl) -> ins = namespaceDiff label word.
Proof.
  intros c st word cl label ins E I.
  assert (G : forall acc, diffs word acc -> finish acc = Some cl -> ins = namespaceDiff label word).
  { intros [[cl' n]|] D F; [|discriminate F]. injection F as ->. exact (D cl n label ins eq_refl I). }
  destruct c; cbn [complete] in E; unfold nameCompletion, classCompletion, typeCompletion, interfaceCompletion, traitCompletion in E;
    (eapply G; [|exact E]); repeat first [apply diffs_namespaces|apply diffs_search|apply diffs_start].
Qed.

Lemma normalise_absolute : forall x, x <> [] -> normaliseNamespaceName x = BSL :: trim_prefix x [BSL].
Proof.
  intros [|b x] N; [congruence|]. unfold normaliseNamespaceName, trim_prefix. cbn [has_prefix]. destruct (byte_eqb b BSL) eqn:E.
  - apply byte_eqb_eq in E as ->. reflexivity.
  - destruct (byte_eqb BSL b) eqn:E'; [apply byte_eqb_eq in E'; subst; rewrite byte_eqb_refl in E; discriminate|]. reflexivity.
Qed.
End P.
