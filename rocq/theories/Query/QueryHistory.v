(** The store answers a query with what the workspace declares. *)
From Coq Require Import String.
From Coq Require Import List Bool NArith ZArith Lia.
From Coq.Strings Require Import Byte.
From Verif Require Import Base.Bytes Base.BytesProofs Base.Protocol Codec.CodecModel Codec.CodecSpec Codec.SymbolCodecModel Codec.SymbolCodecSpec Codec.SymbolCodecProofs
  Symbols.Symbols Symbols.KeysModel Words.TokeniserSpec Storage.KvModel Storage.KvProofs
  Store.FilterModel Store.StoreModel Store.StoreSpec Store.StoreProofs Store.LookupProofs Store.LookupKinds
  Query.QueryModel Query.QueryStoreModel Query.QuerySpec Query.QueryProofs Query.QueryMembers Query.QueryHistorySpec.
Import ListNotations.
Open Scope list_scope.

(** two worlds with the same declarations *)
Definition same_world {M} (ok : gostr -> Prop) (name : gostr) (w w' : world M) : Prop :=
  (forall n c, w_class w n c <-> w_class w' n c) /\ (forall n i, w_interface w n i <-> w_interface w' n i)
  /\ (forall n t, w_trait w n t <-> w_trait w' n t)
  /\ (forall s m, ok s -> w_member w s name m <-> w_member w' s name m)
  /\ (forall n c, w_class w n c -> ok (ts_fqn (c_name c))) /\ (forall n i, w_interface w n i -> ok (ts_fqn (i_name i)))
  /\ (forall n t, w_trait w n t -> ok (ts_fqn (t_name t))).
Lemma same_world_sym : forall {M} ok name (w w' : world M), same_world ok name w w' -> same_world ok name w' w.
Proof.
  intros M ok name w w' (A & B & C & D & E & F & G). split; [|split; [|split; [|split; [|split; [|split]]]]].
  - intros. symmetry. apply A.
  - intros. symmetry. apply B.
  - intros. symmetry. apply C.
  - intros. symmetry. apply D. assumption.
  - intros n c H. eapply E. apply A. exact H.
  - intros n c H. eapply F. apply B. exact H.
  - intros n c H. eapply G. apply C. exact H.
Qed.
Section Same.
Context {M : Type}.
Variables (ok : gostr -> Prop) (name : gostr) (w w' : world M).
Hypothesis SAME : same_world ok name w w'.
Lemma same_parent_w : forall c p, parent w c p -> parent w' c p.
Proof. intros c p (A & B). split; [exact A|]. apply SAME. exact B. Qed.
Lemma same_super : forall c p, super w c p -> super w' c p.
Proof. intros c p (e & A & B & C). exists e. split; [exact A|]. split; [exact B|]. apply SAME. exact C. Qed.
Lemma same_implements : forall c p, implements w c p -> implements w' c p.
Proof. intros c p (e & A & B & C). exists e. split; [exact A|]. split; [exact B|]. apply SAME. exact C. Qed.
Lemma same_uses : forall c p, uses w c p -> uses w' c p.
Proof. intros c p (e & A & B & C). exists e. split; [exact A|]. split; [exact B|]. apply SAME. exact C. Qed.
Lemma same_ancestor : forall c p, ancestor w c p -> ancestor w' c p.
Proof. induction 1; [constructor|]. eapply ancestor_parent; [eassumption|]. apply same_parent_w. assumption. Qed.
Lemma same_super_interface : forall c p, super_interface w c p -> super_interface w' c p.
Proof. induction 1; [constructor|]. eapply super_step; [eassumption|]. apply same_super. assumption. Qed.
Lemma same_generation : forall c n p, generation w c n p -> generation w' c n p.
Proof. induction 1; [constructor|]. eapply generation_S; [eassumption|]. apply same_parent_w. assumption. Qed.
Lemma ancestor_ok : forall c p, ok (ts_fqn (c_name c)) -> ancestor w c p -> ok (ts_fqn (c_name p)).
Proof. intros c p K A. induction A as [|d p A IH [_ P]]; [exact K|]. destruct SAME as (_ & _ & _ & _ & E & _). eapply E. exact P. Qed.
Lemma super_ok : forall i j, ok (ts_fqn (i_name i)) -> super_interface w i j -> ok (ts_fqn (i_name j)).
Proof. intros i j K A. induction A as [|d p A IH (e & _ & _ & P)]; [exact K|]. destruct SAME as (_ & _ & _ & _ & _ & E & _). eapply E. exact P. Qed.
Lemma same_belongs : forall c m sc, ok (ts_fqn (c_name c)) -> belongs w c name m sc -> belongs w' c name m sc.
Proof.
  intros c m sc K [d m' A H|d t m' A U H|d i j m' A I S H]; assert (SW := SAME); destruct SW as (S1 & S2 & S3 & S4 & S5 & S6 & S7).
  - apply own_member; [apply same_ancestor; exact A|]. apply S4; [eapply ancestor_ok; eauto|exact H].
  - eapply trait_member; [apply same_ancestor; exact A|apply same_uses; exact U|]. apply S4; [|exact H].
    destruct U as (e & _ & _ & U). eapply S7. exact U.
  - eapply interface_member; [apply same_ancestor; exact A|apply same_implements; exact I|apply same_super_interface; exact S|].
    apply S4; [|exact H]. eapply super_ok; [|exact S]. destruct I as (e & _ & _ & I). eapply S6. exact I.
Qed.
Lemma same_interface_belongs : forall i m sc, ok (ts_fqn (i_name i)) -> interface_belongs w i name m sc -> interface_belongs w' i name m sc.
Proof.
  intros i m sc K [j m' S H]. constructor; [apply same_super_interface; exact S|]. destruct SAME as (_ & _ & _ & S4 & _). apply S4; [|exact H]. eapply super_ok; eauto.
Qed.
Lemma same_once : declared_once w -> declared_once w'.
Proof.
  assert (SW := SAME). destruct SW as (S1 & S2 & S3 & _). intros [A B C D E F]. constructor.
  - intros n m c d I J. apply S1 in I. apply S1 in J. eauto.
  - intros n i I. apply S2 in I. eauto.
  - intros n i j I J. apply S2 in I. apply S2 in J. eauto.
  - intros n i I. apply S3 in I. eauto.
  - intros n i j I J. apply S3 in I. apply S3 in J. eauto.
  - intros n m c i I J. apply S1 in I. apply S2 in J. eauto.
Qed.
End Same.
Lemma same_nearer : forall {M} ok name (w w' : world M), same_world ok name w w' -> forall c e d, nearer w c e d -> nearer w' c e d.
Proof.
  intros M ok name w w' S c e d (i & G & F). exists i. split; [eapply same_generation; eauto|]. intros j J. apply F. eapply same_generation; [apply same_world_sym; exact S|exact J].
Qed.
Lemma same_overrides : forall {M} ok name (w w' : world M), same_world ok name w w' -> forall c s t, overrides w c s t -> overrides w' c s t.
Proof.
  intros M ok name w w' S c s t. assert (S' := same_world_sym _ _ _ _ S). destruct s as [e|i|u], t as [d|j|v]; cbn [overrides]; intros H; try exact H.
  - eapply same_nearer; eauto.
  - eapply same_ancestor; eauto.
  - destruct H as [A H]. split; [eapply same_ancestor; eauto|]. intros d AD U. destruct (H d) as [->|N].
    + eapply same_ancestor; eauto.
    + eapply same_uses; eauto.
    + left. reflexivity.
    + right. eapply same_nearer; eauto.
  - destruct H as (e & U & N). exists e. split; [eapply same_uses; eauto|eapply same_nearer; eauto].
  - destruct H as (e & A & U). exists e. split; [eapply same_ancestor; eauto|eapply same_uses; eauto].
  - destruct H as (e & A & U & N). exists e. split; [eapply same_ancestor; eauto|]. split; [eapply same_uses; eauto|].
    intros d AD V. eapply same_nearer; [exact S|]. apply N; [eapply same_ancestor; eauto|eapply same_uses; eauto].
Qed.

Section Answers.
Context {T : Text} {X : XorFilter}.
Hypothesis TOK : text_ok T.
Variables (root : gostr) (h : list event) (st : store).
Hypothesis OK : Forall event_ok h.
Hypothesis RUN : run root h = Some st.

Lemma current_uri : forall s, current h s -> ~ In NUL (symbol_uri s).
Proof.
  intros s (u & d & L & D). apply latest_in in L as [L1 L2]. assert (DOK := synced_docs_ok _ _ OK L1). apply (declares_iff TOK) in D; auto.
  destruct D as (_ & I & _). destruct DOK as (N & _ & F & _). rewrite Forall_forall in F. destruct (F s I) as (_ & -> & _). exact N.
Qed.
Lemma prefix_sep_any : forall C n x u, ~ In NUL x -> ~ In NUL u ->
  (has_prefix (newEntry C (n ++ KeySep)) (newEntry C (x ++ KeySep ++ u)) = true <-> x = n).
Proof.
  intros C n x u NX NU. destruct (in_dec Byte.byte_eq_dec NUL n) as [I|N]; [|apply prefix_sep; assumption].
  split; [|intros ->; contradiction]. intros H. exfalso. apply has_prefix_spec in H as [t E]. unfold newEntry in E. rewrite <- !app_assoc in E.
  do 2 apply app_inv_head in E. apply in_split in I as (n1 & n2 & ->).
  (* two NULs on the left, one on the right *)
  apply (f_equal (fun l => count_occ Byte.byte_eq_dec l NUL)) in E.
  assert (Z : forall l, ~ In NUL l -> count_occ Byte.byte_eq_dec l NUL = 0%nat) by (intros l NL; apply count_occ_not_In; exact NL).
  unfold KeySep in E. rewrite !count_occ_app in E. rewrite (Z _ NX), (Z _ NU) in E. cbn in E.
  destruct (Byte.byte_eq_dec NUL NUL) as [_|NE]; [lia|contradiction].
Qed.

Ltac coll_iff := solve [intros s0; split; [destruct s0; simpl; try discriminate; eauto|intros [a0 ->]; reflexivity]].
Ltac wk := solve [intros s0 W; destruct s0; simpl in W; try contradiction; eauto].
Lemma classes_exact : forall n, exists l, ask st (QClass n) = Some l /\ exact_answer h (QClass n) l.
Proof.
  intros n. unfold ask, Query_GetClasses, GetClasses.
  apply (kind_exact TOK _ SClass ReadClass (fun a => a) classCollection root); auto; try (nul_free || discriminate || coll_iff || wk).
  - intros a u (H & _). rewrite <- (app_nil_r (Serialise _)). now apply class_roundtrip.
  - congruence.
  - apply (own_plain TOK); auto; discriminate.
  - intros a Cu. unfold symbol_key. cbn [GetKey GetCollection wanted]. rewrite prefix_sep_any; [apply (same_class_name_iff TOK); assumption|..].
    + apply (fold_name_nul TOK). apply (current_names TOK _ _ OK Cu). left. reflexivity.
    + exact (current_uri _ Cu).
Qed.
Lemma interfaces_exact : forall n, exists l, ask st (QInterface n) = Some l /\ exact_answer h (QInterface n) l.
Proof.
  intros n. unfold ask, GetInterfaces.
  apply (kind_exact TOK _ SInterface ReadInterface (fun s => Interface (i_location s) zero_loc (i_description s) (i_deprecated s) (i_name s) (i_extends s)) interfaceCollection root); auto; try (nul_free || discriminate || coll_iff || wk).
  - intros a u (H & _). rewrite <- (app_nil_r (Serialise _)). now apply interface_roundtrip.
  - congruence.
  - apply (own_plain TOK); auto; discriminate.
  - intros a Cu. unfold symbol_key. cbn [GetKey GetCollection wanted]. apply prefix_sep_any.
    + apply (current_names TOK _ _ OK Cu). left. reflexivity.
    + exact (current_uri _ Cu).
Qed.
Lemma traits_exact : forall n, exists l, ask st (QTrait n) = Some l /\ exact_answer h (QTrait n) l.
Proof.
  intros n. unfold ask, GetTraits.
  apply (kind_exact TOK _ STrait ReadTrait (fun a => a) traitCollection root); auto; try (nul_free || discriminate || coll_iff || wk).
  - intros a u (H & _). rewrite <- (app_nil_r (Serialise _)). now apply trait_roundtrip.
  - congruence.
  - apply (own_plain TOK); auto; discriminate.
  - intros a Cu. unfold symbol_key. cbn [GetKey GetCollection wanted]. apply prefix_sep_any.
    + apply (current_names TOK _ _ OK Cu). left. reflexivity.
    + exact (current_uri _ Cu).
Qed.

Lemma in_answer : forall A (inj : A -> symbol) o l q a, (forall a b, inj a = inj b -> a = b) -> option_map (map inj) o = Some l -> exact_answer h q l ->
  (In a (answer o) <-> exists s, current h s /\ wanted q s /\ inj a = keep s).
Proof.
  intros A inj o l q a INJ E [_ H]. destruct o as [l'|]; [|discriminate E]. injection E as <-. cbn [answer]. rewrite <- H. split; [apply in_map|].
  intros I. apply in_map_iff in I as (b & EB & I). apply INJ in EB. subst b. exact I.
Qed.
Lemma db_class : forall {M} (members : gostr -> gostr -> list M) n c, In c (db_classes (store_db members st) n) <-> class_named h n c.
Proof.
  intros M members n c. destruct (classes_exact n) as (l & A & E). cbn [ask] in A.
  change (In c (answer (Query_GetClasses st n)) <-> class_named h n c). rewrite (in_answer _ SClass _ _ _ c ltac:(congruence) A E). split.
  - intros (s & C & W & K). destruct s; cbn in W; try contradiction. cbn in K. injection K as ->. split; assumption.
  - intros (C & W). exists (SClass c). auto.
Qed.
Lemma db_classes_nodup : forall {M} (members : gostr -> gostr -> list M) n, NoDup (db_classes (store_db members st) n).
Proof.
  intros M members n. destruct (classes_exact n) as (l & A & E & _). cbn [ask] in A.
  change (NoDup (answer (Query_GetClasses st n))). destruct (Query_GetClasses st n) as [cs|]; [|constructor].
  injection A as <-. exact (NoDup_map_inv _ _ E).
Qed.
Lemma db_interface : forall {M} (members : gostr -> gostr -> list M) n c, In c (db_interfaces (store_db members st) n) <-> interface_named h n c.
Proof.
  intros M members n c. destruct (interfaces_exact n) as (l & A & E). cbn [ask] in A.
  change (In c (answer (GetInterfaces st n)) <-> interface_named h n c). rewrite (in_answer _ SInterface _ _ _ c ltac:(congruence) A E). split.
  - intros (s & C & W & K). destruct s; cbn in W; try contradiction. split; [exists (SInterface s); auto|]. cbn in K. injection K as ->. exact W.
  - intros ((s & C & K) & W). exists s. split; [exact C|]. split; [|exact K]. destruct s; try discriminate K. cbn in K. injection K as ->. exact W.
Qed.
Lemma db_trait : forall {M} (members : gostr -> gostr -> list M) n c, In c (db_traits (store_db members st) n) <-> trait_named h n c.
Proof.
  intros M members n c. destruct (traits_exact n) as (l & A & E). cbn [ask] in A.
  change (In c (answer (GetTraits st n)) <-> trait_named h n c). rewrite (in_answer _ STrait _ _ _ c ltac:(congruence) A E). split.
  - intros (s & C & W & K). destruct s; cbn in W; try contradiction. cbn in K. injection K as ->. split; assumption.
  - intros (C & W). exists (STrait c). auto.
Qed.
Lemma db_method : forall scope name m, ~ In NUL scope -> ~ In NUL name -> In m (Query_GetMethods st scope name) <-> method_named h scope name m.
Proof.
  intros scope name m NS NN. unfold Query_GetMethods, method_named. destruct name as [|b name'] eqn:EN.
  - destruct (ask_exact TOK root h st (QAllMethods scope) OK RUN) as (l & A & E); [intros n [<-|[]]; exact NS|exact I|]. cbn [ask] in A.
    rewrite (in_answer _ SMethod _ _ _ m ltac:(congruence) A E). split.
    + intros (s & C & W & K). destruct s; cbn in W; try contradiction. split; [exists (SMethod s); auto|]. cbn in K. injection K as ->. auto.
    + intros ((s & C & K) & W & _). exists s. split; [exact C|]. split; [|exact K]. destruct s; try discriminate K. cbn in K. injection K as ->. exact W.
  - rewrite <- EN in *. destruct (ask_exact TOK root h st (QMethod scope name) OK RUN) as (l & A & E); [intros n [<-|[<-|[]]]; assumption|exact I|]. cbn [ask] in A.
    rewrite (in_answer _ SMethod _ _ _ m ltac:(congruence) A E). split.
    + intros (s & C & W & K). destruct s; cbn in W; try contradiction. split; [exists (SMethod s); auto|]. cbn in K. injection K as ->. cbn. tauto.
    + intros ((s & C & K) & W1 & W2). exists s. split; [exact C|]. split; [|exact K]. destruct s; try discriminate K. cbn in K. injection K as ->.
      cbn in *. destruct W2 as [W2|W2]; [congruence|]. auto.
Qed.
Lemma db_const : forall scope name m, no_shared_constants h -> (name <> [] -> no_longer_constant h scope name) -> ~ In NUL scope -> ~ In NUL name ->
  In m (Query_GetClassConsts st scope name) <-> const_named h scope name m.
Proof.
  intros scope name m NSH NLC NS NN. unfold Query_GetClassConsts, const_named. destruct name as [|b name'] eqn:EN.
  - destruct (ask_exact TOK root h st (QAllClassConsts scope) OK RUN) as (l & A & E); [intros n [<-|[]]; exact NS|exact NSH|]. cbn [ask] in A.
    rewrite (in_answer _ SClassConst _ _ _ m ltac:(congruence) A E). split.
    + intros (s & C & W & K). destruct s; cbn in W; try contradiction. split; [exists (SClassConst s); auto|]. cbn in K. injection K as ->. auto.
    + intros ((s & C & K) & W & _). exists s. split; [exact C|]. split; [|exact K]. destruct s; try discriminate K. cbn in K. injection K as ->. exact W.
  - rewrite <- EN in *. destruct (ask_exact TOK root h st (QClassConst scope name) OK RUN) as (l & A & E); [intros n [<-|[<-|[]]]; assumption|split; [exact NSH|apply NLC; congruence]|]. cbn [ask] in A.
    rewrite (in_answer _ SClassConst _ _ _ m ltac:(congruence) A E). split.
    + intros (s & C & W & K). destruct s; cbn in W; try contradiction. split; [exists (SClassConst s); auto|]. cbn in K. injection K as ->. cbn. tauto.
    + intros ((s & C & K) & W1 & W2). exists s. split; [exact C|]. split; [|exact K]. destruct s; try discriminate K. cbn in K. injection K as ->.
      cbn in *. destruct W2 as [W2|W2]; [congruence|]. auto.
Qed.
Lemma db_prop : forall scope name m, plain_uris h -> ~ In NUL scope -> ~ In NUL name ->
  In m (Query_GetProps st scope name) <-> prop_named h scope name m.
Proof.
  intros scope name m PU NS NN. unfold Query_GetProps, prop_named. destruct name as [|b name'] eqn:EN.
  - destruct (ask_exact TOK root h st (QAllProperties scope) OK RUN) as (l & A & E); [intros n [<-|[]]; exact NS|exact PU|]. cbn [ask] in A.
    rewrite (in_answer _ SProperty _ _ _ m ltac:(congruence) A E). split.
    + intros (s & C & W & K). destruct s; cbn in W; try contradiction. split; [exists (SProperty s); auto|]. cbn in K. injection K as ->. auto.
    + intros ((s & C & K) & W & _). exists s. split; [exact C|]. split; [|exact K]. destruct s; try discriminate K. cbn in K. injection K as ->. exact W.
  - rewrite <- EN in *. destruct (ask_exact TOK root h st (QProperty scope name) OK RUN) as (l & A & E); [intros n [<-|[<-|[]]]; assumption|exact PU|]. cbn [ask] in A.
    rewrite (in_answer _ SProperty _ _ _ m ltac:(congruence) A E). split.
    + intros (s & C & W & K). destruct s; cbn in W; try contradiction. split; [exists (SProperty s); auto|]. cbn in K. injection K as ->. cbn. tauto.
    + intros ((s & C & K) & W1 & W2). exists s. split; [exact C|]. split; [|exact K]. destruct s; try discriminate K. cbn in K. injection K as ->.
      cbn in *. destruct W2 as [W2|W2]; [congruence|]. auto.
Qed.

Definition no_nul (n : gostr) : Prop := ~ In NUL n.
Lemma store_world : forall {M} (members : gostr -> gostr -> list M) (named : gostr -> gostr -> M -> Prop) name,
  (forall scope m, ~ In NUL scope -> In m (members scope name) <-> named scope name m) ->
  same_world no_nul name (store_db members st) (workspace h named).
Proof.
  intros M members named name H. split; [apply db_class|]. split; [apply db_interface|]. split; [apply db_trait|]. split; [exact H|].
  split; [|split].
  - intros n c I. apply (db_class members) in I as [C _]. apply (current_names TOK _ _ OK C). left. reflexivity.
  - intros n c I. apply (db_interface members) in I as [(s & C & K) _]. destruct s; try discriminate K. cbn in K. injection K as ->.
    apply (current_names TOK _ _ OK C). left. reflexivity.
  - intros n c I. apply (db_trait members) in I as [C _]. apply (current_names TOK _ _ OK C). left. reflexivity.
Qed.

Lemma workspace_once : forall {M} (named : gostr -> gostr -> M -> Prop), unique_names h -> declared_once (workspace h named).
Proof.
  assert (SC := same_class_name_iff TOK).
  intros M named [U1 U2 U3 U4]. constructor; cbn [workspace w_class w_interface w_trait].
  - intros n m c d [C N] [D N'] H. apply U1; auto. apply SC. apply SC in N, N'. destruct H as [->|[->|<-]]; congruence.
  - intros n i [_ E]. exact E.
  - intros n i j [(s & C & K) E] [(s' & C' & K') E']. destruct s; try discriminate K. destruct s'; try discriminate K'. cbn in K, K'.
    injection K as ->. injection K' as ->. assert (s = s0) by (apply U2; auto; cbn in *; congruence). subst s0. reflexivity.
  - intros n t [_ E]. exact E.
  - intros n t u [C E] [D E']. apply U3; auto; congruence.
  - intros n m c i [C N] [(s & D & K) _]. destruct s; try discriminate K. cbn in K. injection K as ->. cbn. apply SC in N.
    split; intros E; apply (U4 c s C D); apply SC; [rewrite E|rewrite <- E in N]; congruence.
Qed.
End Answers.
