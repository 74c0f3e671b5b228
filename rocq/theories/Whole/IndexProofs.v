(** The analysis and the index together. *)
From Coq Require Import String.
From Coq Require Import List Bool ZArith Lia.
From Coq.Strings Require Import Byte.
From Verif Require Import Base.Bytes Base.BytesProofs Base.Protocol Symbols.Symbols Symbols.KeysModel Types.TypesModel
  Rpc.StreamModel Rpc.StreamSpec Analyse.SyntaxModel Analyse.AnalyseModel Analyse.AnalyseSpec Analyse.SpecProofs Analyse.AnalyseProofs Analyse.DeclareSpec Analyse.DeclareProofs
  Codec.SymbolCodecSpec Storage.KvModel Store.FilterModel Store.StoreModel Store.StoreSpec Store.StoreProofs Store.LookupProofs Store.LookupKinds Store.StoreTheorems Store.ClaimProofs
  Whole.IndexSpec.
Import ListNotations.
Open Scope list_scope.
Open Scope nat_scope.

Section Proofs.
Context {TX : Text} {TR : TrimSpace} {X : XorFilter}.

Lemma wanted_bears : forall u a s q, hands_over u a s -> (wanted q s <-> bears q a).
Proof.
  intros u a s q (K & H). destruct s as [c|c|c|c|c|c|c|c|c|c]; cbn [kind_of] in K.
  all: destruct (a_kind a) eqn:Ka; try discriminate K; clear K.
  all: repeat match goal with H : _ /\ _ |- _ => destruct H end.
  all: destruct q; cbn [wanted bears]; rewrite Ka; split; try tauto; try (intros (E & _); discriminate E).
  all: repeat match goal with H : ?x = _ |- context [?x] => rewrite H end; try tauto.
  all: intros W; repeat match goal with H : _ /\ _ |- _ => destruct H end; split; congruence.
Qed.
Lemma handed_shown : forall u a s x, hands_over u a s -> shown s x -> shows u x a.
Proof.
  intros u a s x (K & H) S. unfold shows. destruct s; cbn [shown] in S; destruct x; try (destruct S; fail); try discriminate S; cbn [kind_of symbol_location] in *.
  all: try (injection S as ->); try (unfold interface_same, function_same, method_same, class_const_same_but_visibility, property_same in S); repeat match goal with H : _ /\ _ |- _ => destruct H end; repeat split; congruence.
Qed.

Hypothesis TOK : text_ok TX.
Lemma wanted_dec : forall q s, {wanted q s} + {~ wanted q s}.
Proof.
  assert (D : forall a b : gostr, {a = b} + {a <> b}) by (intros a b; apply list_eq_dec; exact Byte.byte_eq_dec).
  assert (C : forall a b, {same_class_name a b} + {~ same_class_name a b}).
  { intros a b. destruct (D (GetClassFQNLowerCase a) (GetClassFQNLowerCase b)) as [E|N]; [left|right; intros S; apply N]; now apply same_class_name_iff. }
  intros q s. destruct q, s; cbn [wanted]; auto; try (right; tauto).
  all: match goal with |- {?a = ?b /\ ?c = ?e} + {_} => destruct (D a b); [destruct (D c e); [left; auto|right; tauto]|right; tauto] end.
Qed.
Lemma same_class_trans : forall a b c, same_class_name a b -> same_class_name a c -> same_class_name b c.
Proof. intros a b c H H'. apply same_class_name_iff in H, H'; auto. apply same_class_name_iff; auto. congruence. Qed.
Lemma wanted_same : forall q s s', wanted q s -> same_entry s s' -> wanted q s'.
Proof.
  intros q s s' W S. destruct s, s'; try (destruct S; fail); destruct q; try (destruct W; fail); cbn [wanted same_entry] in *; try congruence; try intuition congruence.
  exact (same_class_trans _ _ _ S W).
Qed.
Lemma last_wanted : forall q l s, wanted q s -> exists s' before after, s :: l = before ++ s' :: after /\ wanted q s' /\ forall t, In t after -> ~ wanted q t.
Proof.
  intros q. induction l as [|t l IH]; intros s W.
  - exists s, [], []. split; [reflexivity|split; [exact W|intros t []]].
  - destruct (wanted_dec q t) as [Wt|Nt].
    + destruct (IH t Wt) as (s' & b & a & E & W' & N). exists s', (s :: b), a. rewrite E. auto.
    + destruct (IH s W) as (s' & b & a & E & W' & N). destruct b as [|s0 b]; cbn [app] in E.
      * injection E as -> ->. exists s', [], (t :: a). split; [reflexivity|split; [exact W|]]. intros x [<-|I]; auto.
      * injection E as -> ->. exists s', (s0 :: t :: b), a. auto.
Qed.
Lemma indexed : forall q s, query_kind q <> KGlobalVariable -> wanted q s -> indexed_kind s.
Proof. intros q s N W. destruct s; cbn [indexed_kind]; auto. destruct q; try (destruct W; fail). destruct (N eq_refl). Qed.

Lemma found_by_query : forall root h st u sd f s q a before after,
  Forall event_ok h -> run root h = Some st -> latest h u = Some sd -> analyse f = Done tt s ->
  Forall2 (hands_over (d_uri sd)) (kept_symbols (st_out s)) (d_symbols sd) -> kept_symbols (st_out s) = before ++ a :: after ->
  bears q a -> query_kind q <> KGlobalVariable -> (forall n, In n (query_names q) -> ~ In NUL n) -> covered h q ->
  exists l x a', ask st q = Some l /\ In x l /\ In a' (a :: after) /\ bears q a' /\ shows u x a'.
Proof.
  intros root h st u sd f s q a before after OK R L E F K Bq NG QN CV. rewrite K in F. apply Forall2_app_inv_l in F as (b' & r & Fb & Fr & Es).
  inversion Fr as [|a0 s0 r1 aft H F']. subst. clear Fr.
  assert (W : wanted q s0) by (now apply (wanted_bears _ _ _ q H)).
  destruct (last_wanted q aft s0 W) as (s' & b2 & a2 & E2 & W' & N).
  assert (C : current h s').
  { exists u, sd. split; [exact L|]. split; [exact (indexed q s' NG W')|]. exists (b' ++ b2), a2. split; [rewrite Es, E2, app_assoc; reflexivity|].
    intros t It _ S. exact (N t It (wanted_same q s' t W' S)). }
  destruct (ask_exact TOK root h st q OK R QN CV) as (l & A & X0). apply exact_answer_exactly in X0 as (_ & _ & X0).
  destruct (X0 s' (conj C W')) as (x & Ix & Sx).
  assert (F2 : Forall2 (hands_over (d_uri sd)) (a :: after) (b2 ++ s' :: a2)) by (rewrite <- E2; constructor; assumption).
  apply Forall2_app_inv_r in F2 as (x1 & x2 & _ & F2 & E3). inversion F2 as [|a' s1 x3 a3 H' _]. subst.
  exists l, x, a'. split; [exact A|split; [exact Ix|split; [|split]]].
  - rewrite E3. apply in_or_app. right. left. reflexivity.
  - now apply (wanted_bears _ _ _ q H').
  - apply latest_in in L as (_ & U). subst u. exact (handed_shown _ _ _ _ H' Sx).
Qed.

(** the names of handed over symbols contain no NUL *)
Lemma handed_names : forall h u sd s a, Forall event_ok h -> latest h u = Some sd ->
  Forall2 (hands_over (d_uri sd)) (kept_symbols (st_out s)) (d_symbols sd) -> In a (kept_symbols (st_out s)) ->
  exists y, hands_over (d_uri sd) a y /\ forall n, In n (symbol_names y) -> ~ In NUL n.
Proof.
  intros h u sd s a OK L F I. apply in_split in I as (b & r & E). rewrite E in F. apply Forall2_app_inv_l in F as (b' & r' & _ & Fr & Es).
  inversion Fr as [|a0 y r1 aft H F']. subst. exists y. split; [exact H|]. apply latest_in in L as (I & _). pose proof (synced_docs_ok _ _ OK I) as (_ & _ & Fs & _).
  rewrite Forall_forall in Fs. destruct (Fs y) as (_ & _ & N & _); [rewrite Es; apply in_or_app; right; left; reflexivity|exact N].
Qed.

(** where an answer comes from *)
Lemma answer_written : forall root h st q l x, Forall event_ok h -> run root h = Some st -> all_analysed h ->
  (forall n, In n (query_names q) -> ~ In NUL n) -> covered h q -> ask st q = Some l -> In x l ->
  exists u sd f s a, latest h u = Some sd /\ made_from sd f /\ analyse f = Done tt s /\ In a (kept_symbols (st_out s)) /\ bears q a /\ shows u x a.
Proof.
  intros root h st q l x OK R AN QN CV A Ix. destruct (ask_exact TOK root h st q OK R QN CV) as (l' & A' & X0). rewrite A in A'. injection A' as <-.
  apply exact_answer_exactly in X0 as (_ & X0 & _). destruct (X0 x Ix) as (y & ((u & sd & L & D) & W) & Sx).
  pose proof (latest_in _ _ _ L) as (I & U). destruct (AN sd I) as (f & s & E & F). destruct D as (_ & b & r & Es & _).
  pose proof F as F0. rewrite Es in F. apply Forall2_app_inv_r in F as (b' & r' & _ & Fr & Ek). inversion Fr as [|a y0 r1 aft H F']. subst.
  exists (d_uri sd), sd, f, s, a. split; [exact L|]. split; [exists s; auto|]. split; [exact E|]. split; [rewrite Ek; apply in_or_app; right; left; reflexivity|].
  split; [now apply (wanted_bears _ _ _ q H)|]. exact (handed_shown _ _ _ _ H Sx).
Qed.

(** ** The symbols of a file among those kept *)
Lemma kept_app : forall l l', kept_symbols (l ++ l') = kept_symbols l ++ kept_symbols l'.
Proof. intros. unfold kept_symbols. rewrite flat_map_app. apply filter_app. Qed.
Lemma kept_cons : forall a inside l, kept a = true -> kept_symbols (ASym a inside :: l) = a :: kept_symbols inside ++ kept_symbols l.
Proof.
  intros a inside l K. unfold kept_symbols. cbn [flat_map preorder app List.filter]. rewrite K, filter_app. reflexivity.
Qed.
Lemma kept_inside : forall a inside x, In x (kept_symbols inside) -> In x (kept_symbols [ASym a inside]).
Proof.
  intros a inside x I. unfold kept_symbols in *. cbn [flat_map preorder app List.filter]. rewrite app_nil_r. destruct (kept a); [right|]; exact I.
Qed.
Lemma preorder_written : forall d s n a, comes_from d n s -> In a (preorder s) -> (exists m, below m n /\ says d a m) \/ declared_by_comment d a.
Proof.
  fix IH 2. intros d [x kids] n a C I. cbn [preorder] in I. inversion C as [n0 m x0 kids0 Bl Sy _ F|n0 x0 Dc Nd]; subst.
  - destruct I as [<-|I]; [left; exists m; auto|].
    assert (G : (exists m', below m' m /\ says d a m') \/ declared_by_comment d a).
    { revert F I. clear C Sy. generalize kids. fix IHl 1. intros [|k l] F I; [destruct I|]. cbn [flat_map] in I. apply in_app_or in I as [I|I].
      - exact (IH d k m a (Forall_inv F) I).
      - exact (IHl l (Forall_inv_tail F) I). }
    destruct G as [(m' & Bm & Sm)|G]; [left; exists m'; split; [exact (below_trans _ _ _ Bm Bl)|exact Sm]|right; exact G].
  - cbn [flat_map] in I. destruct I as [<-|[]]. right. exact Dc.
Qed.
End Proofs.
