(** Claims about the analysis and the index together: from the text of a file to
    the answer of a look-up. *)
From Coq Require Import String.
From Coq Require Import List Bool ZArith Lia.
From Coq.Strings Require Import Byte.
From Verif Require Import Base.Bytes Base.BytesProofs Base.Protocol Symbols.Symbols Symbols.KeysModel Types.TypesModel
  Rpc.StreamModel Rpc.StreamSpec Analyse.SyntaxModel Analyse.AnalyseModel Analyse.AnalyseSpec Analyse.SpecProofs Analyse.AnalyseProofs
  Analyse.DeclareSpec Analyse.DeclareProofs Analyse.Examples Claims.Analyse
  Codec.SymbolCodecSpec Storage.KvModel Store.FilterModel Store.StoreModel Store.StoreSpec Store.StoreProofs Store.Examples
  Whole.IndexSpec Whole.IndexProofs.
Import ListNotations.
Open Scope list_scope.
Open Scope nat_scope.

(** ** C73 what a file declares is found by its name *)
(** The history may contain anything before and after the file was indexed, as
    long as [sd] is its latest version. The result is at the declaration [n], or at
    a later one of the same name in the same file. *)
Theorem C73_declared_then_found_partial : forall (TX : Text) (TR : TrimSpace) (X : XorFilter) root h st u sd f s ns n k name q,
  text_ok TX -> trim_ok TR -> Forall event_ok h -> run root h = Some st -> latest h u = Some sd ->
  analyse f = Done tt s -> Forall2 (hands_over (d_uri sd)) (kept_symbols (st_out s)) (d_symbols sd) -> namespaces_outside f ->
  In (ns, n) (statements f) -> declares_kind n k -> name_of f n = Some name -> plain_name name -> by_name k (qualify ns name) = Some q ->
  exists l x a before after a', ask st q = Some l /\ In x l /\ kept_symbols (st_out s) = before ++ a :: after /\
    sits_at f n a /\ bears q a /\ In a' (a :: after) /\ bears q a' /\ shows u x a'.
Proof.
  intros TX TR X root h st u sd f s ns n k name q TOK ROK OK R L E F O I K Nm Pl Q.
  destruct (C71_declaration_found_partial f s ns n k name ROK O E I K Nm Pl) as (b & a & inside & r & Es & Ka & Na & _ & Pa).
  assert (Kp : kept a = true) by (unfold kept; rewrite Ka; destruct k; try discriminate Q; reflexivity).
  assert (Bq : bears q a) by (destruct k; try discriminate Q; injection Q as <-; (split; [exact Ka|]); try exact Na; left; exact Na).
  assert (Ek : kept_symbols (st_out s) = kept_symbols b ++ a :: kept_symbols inside ++ kept_symbols r).
  { rewrite Es, kept_app. f_equal. apply kept_cons. exact Kp. }
  assert (QN : forall m, In m (query_names q) -> ~ In NUL m).
  { destruct (handed_names h u sd s a OK L F) as (y & H & N); [rewrite Ek; apply in_or_app; right; left; reflexivity|].
    intros m Im. apply N. destruct H as (Hk & H). rewrite Ka in Hk.
    destruct k; try discriminate Q; injection Q as <-; destruct Im as [<-|[]]; destruct y; try discriminate Hk; destruct H as (Hn & _); cbn [symbol_names]; left; rewrite Hn; exact Na. }
  assert (CV : covered h q) by (destruct k; try discriminate Q; injection Q as <-; exact Logic.I).
  assert (NG : query_kind q <> KGlobalVariable) by (destruct k; try discriminate Q; injection Q as <-; discriminate).
  destruct (found_by_query TOK root h st u sd f s q a _ _ OK R L E F Ek Bq NG QN CV) as (l & x & a' & A & Ix & Ia & Ba & Sa).
  exists l, x, a, (kept_symbols b), (kept_symbols inside ++ kept_symbols r), a'. auto 10.
Qed.
Print Assumptions C73_declared_then_found_partial.

(** Members of a class, through the class and their name. Class constants need
    that no other file and no longer name interferes (see C09), properties that no
    URI ends in a digit (see C08). *)
Theorem C73_member_then_found_partial : forall (TX : Text) (TR : TrimSpace) (X : XorFilter) root h st u sd f s ns n name e member k q,
  text_ok TX -> trim_ok TR -> Forall event_ok h -> run root h = Some st -> latest h u = Some sd ->
  analyse f = Done tt s -> Forall2 (hands_over (d_uri sd)) (kept_symbols (st_out s)) (d_symbols sd) -> namespaces_outside f ->
  In (ns, n) (statements f) -> is_class_like n -> name_of f n = Some name -> plain_name name -> simple_class n ->
  match k with
  | AMethod => In e (parts n) /\ node_type e = Some PhMethodDeclaration
  | AProperty => node_type n <> Some PhInterfaceDeclaration /\ exists kids mods, In (Ph PhPropertyDeclaration kids) (parts n) /\ In (mods, e) (properties kids)
  | AClassConst => exists kids mods, In (Ph PhClassConstDeclaration kids) (parts n) /\ In (mods, e) (class_consts kids)
  | _ => False
  end ->
  name_of f e = Some member -> by_member k (qualify ns name) member = Some q -> covered h q ->
  exists l x a before after a', ask st q = Some l /\ In x l /\ kept_symbols (st_out s) = before ++ a :: after /\
    sits_at f e a /\ bears q a /\ In a' (a :: after) /\ bears q a' /\ shows u x a'.
Proof.
  intros TX TR X root h st u sd f s ns n name e member k q TOK ROK OK R L E F O I K Nm Pl Sc M Em Q CV.
  assert (G : exists a inside, a_kind a = k /\ sits_at f e a /\ ts_fqn (a_scope a) = qualify ns name /\ ts_fqn (a_name a) = member /\
    exists syms m b r, reported_members f s ns n name m syms /\ syms = b ++ ASym a inside :: r).
  { destruct k; try (destruct M; fail).
    - destruct M as (M & Te). destruct e as [ty kids|t|er]; try discriminate Te. injection Te as ->.
      destruct (C72_methods_partial f s ns n name kids ROK O E I K Nm Pl Sc M) as (a & inside & Rm & Ka & Pa & Ca & _ & _ & Na). destruct (Na member Em) as (Nb & _).
      exists a, inside. repeat (split; [auto|]). eexists _, _, [], []. split; [exact Rm|reflexivity].
    - destruct M as (Ni & kids & mods & M & Me).
      destruct (C72_properties_partial f s ns n name kids mods e ROK O E I K Ni Nm Pl Sc M Me) as (syms & b & a & r & Rm & Es & Ka & Pa & Ca & _ & _ & Na). destruct (Na member Em) as (Nb & _).
      exists a, []. repeat (split; [auto|]). eexists _, _, b, r. split; [exact Rm|exact Es].
    - destruct M as (kids & mods & M & Me).
      destruct (C72_constants_partial f s ns n name kids mods e ROK O E I K Nm Pl Sc M Me) as (syms & b & a & r & Rm & Es & Ka & Pa & Ca & _ & _ & Na). destruct (Na member Em) as (Nb & _).
      exists a, []. repeat (split; [auto|]). eexists _, _, b, r. split; [exact Rm|exact Es]. }
  destruct G as (a & inside & Ka & Pa & Ca & Na & syms & m & b & r & Rm & Es).
  assert (Kp : kept a = true) by (unfold kept; rewrite Ka; destruct k; try (destruct M; fail); reflexivity).
  assert (Ia : In a (kept_symbols (st_out s))).
  { destruct Rm as (b1 & x1 & in1 & r1 & b2 & r2 & Eo & _ & _ & _ & _ & Ei). rewrite Eo, kept_app. apply in_or_app. right.
    change (ASym x1 in1 :: r1) with ([ASym x1 in1] ++ r1). rewrite kept_app. apply in_or_app. left. apply kept_inside. rewrite Ei, Es, !kept_app.
    apply in_or_app. right. apply in_or_app. left. apply in_or_app. right. rewrite kept_cons by exact Kp. left. reflexivity. }
  assert (Bq : bears q a) by (destruct k; try discriminate Q; injection Q as <-; (split; [exact Ka|]); (split; [exact Ca|]); congruence).
  assert (QN : forall x, In x (query_names q) -> ~ In NUL x).
  { destruct (handed_names h u sd s a OK L F Ia) as (y & H & N). intros x Ix. apply N. destruct H as (Hk & H). rewrite Ka in Hk.
    destruct k; try discriminate Q; injection Q as <-; destruct y; try discriminate Hk; destruct H as (Hn & _ & Hs & _); cbn [symbol_names];
      rewrite Hs, Hn, Ca, Na; exact Ix. }
  assert (NG : query_kind q <> KGlobalVariable) by (destruct k; try discriminate Q; injection Q as <-; discriminate).
  apply in_split in Ia as (before & after & Ek).
  destruct (found_by_query TOK root h st u sd f s q a before after OK R L E F Ek Bq NG QN CV) as (l & x & a' & A & Ix & Ia & Ba & Sa).
  exists l, x, a, before, after, a'. auto 10.
Qed.
Print Assumptions C73_member_then_found_partial.

(** ** C74 what is found is written in a file *)
Theorem C74_found_then_written_partial : forall (TX : Text) (TR : TrimSpace) (X : XorFilter) root h st q l x,
  text_ok TX -> trim_ok TR -> Forall event_ok h -> run root h = Some st -> all_analysed h ->
  (forall n, In n (query_names q) -> ~ In NUL n) -> covered h q -> ask st q = Some l -> In x l ->
  exists u sd f a, latest h u = Some sd /\ made_from sd f /\ bears q a /\ shows u x a /\
    ((exists n, below n (d_root f) /\ says f a n) \/ declared_by_comment f a).
Proof.
  intros TX TR X root h st q l x TOK ROK OK R AN QN CV A Ix.
  destruct (answer_written TOK root h st q l x OK R AN QN CV A Ix) as (u & sd & f & s & a & L & Md & E & Ia & Ba & Sa).
  exists u, sd, f, a. split; [exact L|split; [exact Md|split; [exact Ba|split; [exact Sa|]]]].
  unfold kept_symbols in Ia. apply filter_In in Ia as (Ia & _). apply in_flat_map in Ia as (y & Iy & Ia).
  pose proof (C70_symbols_come_from_the_file f s ROK E) as Fc. rewrite Forall_forall in Fc. exact (preorder_written f y (d_root f) a (Fc y Iy) Ia).
Qed.
Print Assumptions C74_found_then_written_partial.

(** ** The file of the examples in a workspace *)
Definition at_place (u : gostr) (a : adata) : location := Loc u (a_range a).
Definition record_of (u : gostr) (a : adata) : list symbol :=
  match a_kind a with
  | AClass => [SClass (Class [] (at_place u a) (at_place u a) NoClassModifier (a_name a) empty_ts [] [] None)]
  | AFunction => [SFunction (Function (at_place u a) (at_place u a) (a_name a) [] [] [] None)]
  | AMethod => [SMethod (Method (at_place u a) (at_place u a) (ts_fqn (a_name a)) [] [] [] (a_scope a) (a_vis a) (a_static a) NoClassModifier None)]
  | AProperty => [SProperty (Property (at_place u a) (at_place u a) [] None (ts_fqn (a_name a)) (a_scope a) (a_vis a) (a_static a) [])]
  | _ => []
  end.
Definition shop_doc : doc := Eval vm_compute in
  StoreModel.Doc uri_a (B "hash-shop") (flat_map (record_of uri_a) (kept_symbols (found (@analyse ascii_text ascii_trim_space (file shop))))) [B "\App"] [].
Lemma shop_doc_ok : doc_ok shop_doc.
Proof. unfold shop_doc. ok. Qed.
Definition shop_history : list event := [EvSync doc_a; EvSync doc_b; EvSync shop_doc; EvRestart].
Lemma shop_made : exists s, @analyse ascii_text ascii_trim_space (file shop) = Done tt s /\
  Forall2 (hands_over uri_a) (kept_symbols (st_out s)) (d_symbols shop_doc).
Proof.
  destruct (C69_no_crash_partial (TX := ascii_text) (file shop) ascii_trim_ok shop_well_parsed) as (s & E). exists s. split; [exact E|].
  assert (X : kept_symbols (st_out s) = kept_symbols (found (@analyse ascii_text ascii_trim_space (file shop)))) by (rewrite E; reflexivity).
  rewrite X. clear E X. vm_compute (kept_symbols _). unfold shop_doc. cbn [d_symbols].
  repeat (constructor; [vm_compute; repeat split|]). constructor.
Qed.
Example C73_hypotheses_met : Forall event_ok shop_history /\ (exists st, run root_uri shop_history = Some st /\
    option_map (map symbol_location) (ask st (QClass (B "\App\CART"))) = Some [Loc uri_a (Rng (Pos 2 0) (Pos 5 1))] /\
    option_map (map symbol_location) (ask st (QMethod (B "\App\Cart") (B "Add"))) = Some [Loc uri_a (Rng (Pos 4 0) (Pos 4 59))] /\
    ask st (QClass (B "\App\Shop")) = Some []) /\
  latest shop_history uri_a = Some shop_doc /\ d_uri shop_doc = uri_a.
Proof.
  split; [|split].
  - constructor; [exact doc_a_ok|constructor; [exact doc_b_ok|constructor; [exact shop_doc_ok|constructor; [exact Logic.I|constructor]]]].
  - eexists. split; [vm_compute; reflexivity|]. compute_all.
  - split; vm_compute; reflexivity.
Qed.
Example C74_hypotheses_met : Forall event_ok [EvSync shop_doc] /\ @all_analysed ascii_text ascii_trim_space [EvSync shop_doc] /\
  exists st, run root_uri [EvSync shop_doc] = Some st /\ option_map (length (A := _)) (ask st (QAllMethods (B "\App\Cart"))) = Some 1.
Proof.
  split; [constructor; [exact shop_doc_ok|constructor]|]. split.
  - intros sd [<-|[]]. exists (file shop). destruct shop_made as (s & E & F). exists s. exact (conj E F).
  - eexists. split; [vm_compute; reflexivity|vm_compute; reflexivity].
Qed.
