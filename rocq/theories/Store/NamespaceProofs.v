(** Searching namespaces. *)
From Coq Require Import String.
From Coq Require Import List Bool NArith ZArith Lia.
From Coq.Strings Require Import Byte.
From Verif Require Import Base.Bytes Base.BytesProofs Base.Protocol Base.Decimal
  Codec.CodecModel Codec.CodecSpec Codec.CodecProofs Symbols.Symbols Symbols.KeysModel Words.TokeniserModel Words.TokeniserSpec Words.TokeniserProofs
  Storage.KvModel Storage.KvSpec Storage.KvProofs Store.FilterModel Store.StoreModel Store.StoreSpec Store.StoreProofs Store.LookupProofs Store.LookupKinds
  Store.SearchModel Store.SearchSpec Store.SearchProofs Types.TypesModel.
Import ListNotations.
Open Scope list_scope.

(** ** Specification *)
(** a part of a namespace name *)
Definition ns_part (p : gostr) : Prop := p <> [] /\ ~ In BSL p /\ ~ In NUL p.

(** the parts of a namespace name, which may be written with a leading
    backslash; the global namespace has none *)
Definition ns_parts (ns : gostr) (ps : list gostr) : Prop :=
  (forall p, In p ps -> ns_part p) /\ (ns = join ps [BSL] \/ ns = BSL :: join ps [BSL]).

(** all namespace names seen are well-formed and not absurdly long *)
Definition clean_namespaces (h : list event) : Prop :=
  forall d ns, In d (synced_docs h) -> In ns (d_namespaces d) ->
    exists ps, ns_parts ns ps /\ forall i, (i < length ps)%nat -> go_len (BSL :: join ps [BSL] ++ NUL :: Itoa (Z.of_nat i)).

(** ** Proofs *)
Lemma ns_join_cons : forall p q ps c, join (p :: q :: ps) [c] = p ++ c :: join (q :: ps) [c].
Proof. reflexivity. Qed.

Lemma join_snoc : forall ps p, ps <> [] -> join (ps ++ [p]) [BSL] = join ps [BSL] ++ BSL :: p.
Proof.
  induction ps as [|a ps IH]; intros p N; [congruence|]. destruct ps as [|b ps]; [reflexivity|].
  change ((a :: b :: ps) ++ [p]) with (a :: (b :: ps) ++ [p]). change ((b :: ps) ++ [p]) with (b :: ps ++ [p]) at 1.
  rewrite ns_join_cons. change (b :: ps ++ [p]) with ((b :: ps) ++ [p]). rewrite IH by discriminate. rewrite ns_join_cons, <- app_assoc. reflexivity.
Qed.

Lemma join_ns_nil : forall ps, (forall p, In p ps -> ns_part p) -> join ps [BSL] = [] -> ps = [].
Proof.
  intros [|p [|q ps]] H E; [reflexivity| |].
  - destruct (H p (or_introl eq_refl)) as (NE & _). cbn in E. congruence.
  - rewrite ns_join_cons in E. destruct p; discriminate.
Qed.

Lemma join_ns_head : forall ps b t, (forall p, In p ps -> ns_part p) -> join ps [BSL] = b :: t -> b <> BSL.
Proof.
  intros [|p ps] b t H E; [discriminate|]. destruct (H p (or_introl eq_refl)) as (NE & NB & _). destruct p as [|x p]; [congruence|].
  assert (b = x) by (destruct ps; cbn in E; injection E; auto). subst. intros ->. apply NB. left. reflexivity.
Qed.

Lemma join_ns_nul : forall ps, (forall p, In p ps -> ns_part p) -> ~ In NUL (join ps [BSL]).
Proof.
  induction ps as [|p ps IH]; intros H; [intros []|]. destruct ps as [|q ps]; [apply (H p (or_introl eq_refl))|].
  rewrite ns_join_cons. intros I. apply in_app_or in I as [I|[I|I]]; [|discriminate|].
  - revert I. apply (H p (or_introl eq_refl)).
  - revert I. apply IH. intros x Ix. apply H. right. exact Ix.
Qed.

Lemma join_ns_inj : forall ps qs, (forall p, In p ps -> ns_part p) -> (forall p, In p qs -> ns_part p) -> join ps [BSL] = join qs [BSL] -> ps = qs.
Proof.
  intros ps qs Hp Hq E. destruct ps as [|p ps]; [symmetry; apply join_ns_nil; auto|]. destruct qs as [|q qs]; [apply join_ns_nil; auto|].
  rewrite <- (split_join (p :: ps) BSL), <- (split_join (q :: qs) BSL); [now rewrite E|discriminate| |discriminate|].
  - intros x I. apply (Hq x I).
  - intros x I. apply (Hp x I).
Qed.

Lemma ns_levels : forall ps pre i, (forall p, In p (pre ++ ps) -> ns_part p) ->
  nth_error (namespace_parts (join pre [BSL]) ps) i = option_map (fun p => (join (pre ++ firstn i ps) [BSL], p)) (nth_error ps i).
Proof.
  induction ps as [|p ps IH]; intros pre i H; [destruct i; reflexivity|]. cbn [namespace_parts]. destruct i as [|i].
  - cbn. now rewrite app_nil_r.
  - cbn [nth_error firstn].
    assert (E : (match join pre [BSL] with [] => [] | _ => join pre [BSL] ++ [BSL] end) ++ p = join (pre ++ [p]) [BSL]).
    { destruct pre as [|a pre]; [reflexivity|]. rewrite join_snoc by discriminate.
      destruct (join (a :: pre) [BSL]) eqn:J; [apply join_ns_nil in J; [discriminate|]; intros x I; apply H; apply in_or_app; auto|].
      rewrite <- app_assoc. reflexivity. }
    rewrite E, IH; [|intros x I; apply H; rewrite <- app_assoc in I; exact I]. rewrite <- app_assoc. reflexivity.
Qed.

Lemma indexables_levels : forall ns ps, ns_parts ns ps ->
  snd (indexablesFromNamespaceName ns) = BSL :: join ps [BSL]
  /\ forall i, nth_error (fst (indexablesFromNamespaceName ns)) i = option_map (fun p => (join (firstn i ps) [BSL], p)) (nth_error ps i).
Proof.
  intros ns ps (H & E). unfold indexablesFromNamespaceName.
  set (name := match ns with b :: n => if byte_eqb b BSL then n else ns | [] => [] end).
  assert (EN : name = join ps [BSL]).
  { unfold name. destruct E as [E|E]; rewrite E.
    - destruct (join ps [BSL]) as [|b t] eqn:J; [reflexivity|]. assert (NB := join_ns_head _ _ _ H J). apply byte_eqb_neq in NB. now rewrite NB.
    - now rewrite byte_eqb_refl. }
  rewrite EN. cbn [fst snd]. split; [reflexivity|]. intros i. destruct ps as [|p ps]; [destruct i; reflexivity|].
  destruct (join (p :: ps) [BSL]) as [|b t] eqn:J; [apply join_ns_nil in J; [discriminate|exact H]|]. rewrite <- J.
  rewrite split_join; [|discriminate|intros x I; apply (H x I)]. apply (ns_levels (p :: ps) [] i). exact H.
Qed.

Definition ns_tail (sp : list gostr) : gostr := match sp with [] => [] | _ => BSL :: join sp [BSL] ++ KeySep end.

Lemma ns_entry : forall sp y, (forall p, In p sp -> ns_part p) ->
  newEntry (namespace_IndexCollection (join sp [BSL])) y = newEntry namespaceCompletionIndex (ns_tail sp ++ y).
Proof.
  intros sp y H. unfold namespace_IndexCollection. destruct sp as [|p sp]; [reflexivity|].
  destruct (join (p :: sp) [BSL]) as [|b t] eqn:J; [apply join_ns_nil in J; [discriminate|exact H]|].
  assert (NB := join_ns_head _ _ _ H J). unfold ns_tail. rewrite J.
  destruct (str_eqb_spec (b :: t) [BSL]) as [E|_]; [injection E as -> _; congruence|].
  unfold newEntry. rewrite <- !app_assoc. cbn [app]. rewrite <- app_assoc. reflexivity.
Qed.

Section S.
Context {T : Text} {X : XorFilter}.
Hypothesis TOK : text_ok T.

Lemma ns_prefix : forall sp before x t key,
  (forall p, In p sp -> ns_part p) -> (forall p, In p before -> ns_part p) ->
  x <> [] -> ~ In NUL x -> ~ In BSL x -> ~ In NUL t -> ~ In BSL t ->
  has_prefix (newEntry namespaceCompletionIndex (ns_tail sp ++ x)) (newEntry namespaceCompletionIndex (ns_tail before ++ t ++ KeySep ++ key)) = true ->
  sp = before /\ has_prefix x t = true.
Proof.
  intros sp before x t key Hs Hb NE Nx Bx Nt Bt P. unfold newEntry in P. rewrite !has_prefix_app_l in P.
  destruct sp as [|s sp], before as [|b before]; cbn [ns_tail] in P.
  - split; [reflexivity|]. cbn [app] in P. eapply prefix_word; [exact Nx|exact P].
  - exfalso. cbn [app] in P. destruct x as [|c x]; [congruence|]. cbn [has_prefix] in P. apply andb_true_iff in P as [P _]. apply byte_eqb_eq in P. subst.
    apply Bx. left. reflexivity.
  - exfalso. cbn [app has_prefix] in P. destruct t as [|c t]; cbn [app] in P.
    + discriminate.
    + apply andb_true_iff in P as [P _]. apply byte_eqb_eq in P. subst. apply Bt. left. reflexivity.
  - cbn [app has_prefix] in P. rewrite byte_eqb_refl in P. cbn [andb] in P. rewrite <- !app_assoc in P. unfold KeySep at 1 2 in P. cbn [app] in P.
    apply sep_prefix_cancel in P as [E P]; [|now apply join_ns_nul|now apply join_ns_nul].
    split; [now apply join_ns_inj|]. eapply prefix_word; [exact Nx|exact P].
Qed.

Lemma visits_collect : forall (g : gostr -> gostr) L seen l,
  (forall k v, In (k, v) L -> exists cv r, ReadString v = Some (cv, r)) ->
  exists seen' l', visits (fun acc cv => Some (acc ++ [g cv], false)) L (Some (seen, l, false)) = Some (seen', l', false)
    /\ (forall cv, In cv seen' <-> In cv seen \/ exists k v r, In (k, v) L /\ ReadString v = Some (cv, r))
    /\ (forall f, In f l' <-> In f l \/ exists cv, In cv seen' /\ ~ In cv seen /\ f = g cv).
Proof.
  intros g. induction L as [|[k v] L IH]; intros seen l RD.
  - exists seen, l. split; [reflexivity|]. split.
    + intros cv. split; [auto|]. intros [H|(k & v & r & [] & _)]. exact H.
    + intros f. split; [auto|]. intros [H|(cv & H1 & H2 & _)]; [exact H|contradiction].
  - cbn [visits com_step fst]. destruct (RD k v (or_introl eq_refl)) as (cv & r & E). unfold com_step. rewrite E.
    destruct (existsb (str_eqb cv) seen) eqn:S; cbn [fst].
    + assert (IS : In cv seen) by (apply existsb_exists in S as (y & I & Ey); apply str_eqb_eq in Ey; now subst).
      destruct (IH seen l) as (seen' & l' & V & H1 & H2); [intros k' v' I; apply (RD k' v'); right; exact I|].
      exists seen', l'. split; [exact V|]. split; [|exact H2]. intros c. rewrite H1. split.
      * intros [H|(k' & v' & r' & I & R)]; [auto|]. right. exists k', v', r'. split; [right; exact I|exact R].
      * intros [H|(k' & v' & r' & [I|I] & R)]; [auto| |right; eauto]. injection I as <- <-. rewrite E in R. injection R as <- _. auto.
    + assert (NS : ~ In cv seen) by (intros I; assert (existsb (str_eqb cv) seen = true) by (apply existsb_exists; exists cv; split; [exact I|apply str_eqb_refl]); congruence).
      destruct (IH (cv :: seen) (l ++ [g cv])) as (seen' & l' & V & H1 & H2); [intros k' v' I; apply (RD k' v'); right; exact I|].
      exists seen', l'. split; [exact V|]. split.
      * intros c. rewrite H1. split.
        { intros [[<-|H]|(k' & v' & r' & I & R)]; [right; exists k, v, r; split; [left; reflexivity|exact E]|auto|right; exists k', v', r'; split; [right; exact I|exact R]]. }
        { intros [H|(k' & v' & r' & [I|I] & R)]; [left; right; exact H| |right; eauto]. injection I as <- <-. rewrite E in R. injection R as <- _. left; left; reflexivity. }
      * intros f. rewrite H2. split.
        { intros [H|(c & H & H' & ->)].
          - apply in_app_or in H as [H|[<-|[]]]; [auto|]. right. exists cv. split; [apply H1; left; left; reflexivity|auto].
          - right. exists c. split; [exact H|]. split; [intros I; apply H'; right; exact I|reflexivity]. }
        { intros [H|(c & H & H' & ->)]; [left; apply in_or_app; auto|]. destruct (str_eqb_spec c cv) as [->|N].
          - left. apply in_or_app. right. left. reflexivity.
          - right. exists c. split; [exact H|]. split; [intros [I|I]; congruence|reflexivity]. }
Qed.

Lemma scope_of_keyword : forall (lead : bool) sp w, (forall p, In p sp -> ns_part p) -> w <> [] -> ~ In BSL w ->
  let '(scope, w') := GetScopeAndNameFromString ((if lead then [BSL] else []) ++ join (sp ++ [w]) [BSL]) in
  w' = w /\ match (if str_eqb scope [BSL] then [] else scope) with
            | [] => namespaceCompletionIndex
            | _ => namespaceCompletionIndex ++ KeySep ++ (if str_eqb scope [BSL] then [] else scope)
            end = namespace_IndexCollection (join sp [BSL]).
Proof.
  intros lead sp w H NE NB. set (k := (if lead then [BSL] else []) ++ join (sp ++ [w]) [BSL]).
  assert (Q := scope_and_name k). destruct (GetScopeAndNameFromString k) as [scope w'].
  assert (Q' : qualifier k (match sp with [] => if lead then [BSL] else [] | _ => BSL :: join sp [BSL] end) w).
  { destruct sp as [|p sp].
    - destruct lead; [|left; repeat split; auto]. right. right. exists []. auto.
    - right. right. exists ((if lead then [BSL] else []) ++ join (p :: sp) [BSL]).
      split; [exact NB|]. split; [unfold k; rewrite join_snoc by discriminate; rewrite <- app_assoc; reflexivity|]. rewrite trim_prefix_bsl.
      destruct lead; cbn [app]; [now rewrite byte_eqb_refl|]. destruct (join (p :: sp) [BSL]) as [|b t] eqn:J; [reflexivity|].
      assert (N := join_ns_head _ _ _ H J). apply byte_eqb_neq in N. now rewrite N. }
  destruct (qualifier_functional _ _ _ _ _ Q Q') as [-> ->]. split; [reflexivity|].
  destruct sp as [|p sp]; [destruct lead; reflexivity|]. cbn [str_eqb].
  destruct (join (p :: sp) [BSL]) as [|b t] eqn:J; [apply join_ns_nil in J; [discriminate|exact H]|].
  rewrite byte_eqb_refl. cbn [andb str_eqb]. unfold namespace_IndexCollection.
  assert (N := join_ns_head _ _ _ H J). destruct (str_eqb_spec (b :: t) [BSL]) as [E|_]; [injection E as -> _; congruence|reflexivity].
Qed.

Lemma tok_free : forall name t c, c = NUL \/ c = BSL -> ~ In c name -> token name t -> ~ In c (to_lower t).
Proof.
  intros name t c D N (toks & E & I). apply TOK; [auto|]. apply Tokenise_sound in E as (_ & _ & F).
  eapply substring_free; [apply F, I|exact N].
Qed.

Theorem namespaces_exact : forall root h st lead sp w,
  (forall x, to_lower x = [] -> x = []) ->
  Forall event_ok h -> run root h = Some st -> clean_namespaces h ->
  (forall p, In p sp -> ns_part p) -> well_encoded w -> ~ In NUL w -> ~ In BSL w -> (exists b, In b w /\ b <> US) ->
  exists l, SearchNamespaces st ((if lead : bool then [BSL] else []) ++ join (sp ++ [w]) [BSL]) = Some (l, true)
    /\ forall f, In f l <-> exists d ns ps part after, In d (synced_docs h) /\ In ns (d_namespaces d)
         /\ ns_parts ns ps /\ ps = sp ++ part :: after /\ matches w part /\ f = BSL :: join ps [BSL].
Proof.
  intros root h st lead sp w LOW OK RUN CLEAN Hs WE Nw Bw NU.
  assert (NEw : w <> []) by (destruct NU as (b & I & _); destruct w; [destruct I|discriminate]).
  unfold SearchNamespaces. assert (K := scope_of_keyword lead sp w Hs NEw Bw).
  destruct (GetScopeAndNameFromString _) as [scope w']. destruct K as [-> K]. cbv zeta. rewrite K. clear K.
  destruct (com_content root h st RUN) as (CS & _ & CN). assert (ASC := com_ascending _ _ _ RUN).
  destruct (Tokenise_ok is_upper is_digit w WE) as (words & TW & TNE). specialize (TNE NU).
  assert (TK : forall x, In x words -> token w x) by (intros x I; exists words; auto).
  unfold searchCompletions, tokenise. rewrite TW, com_words_visits.
  set (L := visited (s_com st) (namespace_IndexCollection (join sp [BSL])) words).
  assert (VIS : forall ek v, In (ek, v) L -> exists d ns ps i part t x, In d (synced_docs h) /\ In ns (d_namespaces d) /\ ns_parts ns ps
      /\ nth_error ps i = Some part /\ firstn i ps = sp /\ token part t /\ In x words /\ has_prefix (to_lower x) (to_lower t) = true
      /\ ReadString v = Some ((BSL :: join ps [BSL]) ++ KeySep ++ Itoa (Z.of_nat i), [])).
  { intros ek v I. apply in_flat_map in I as (x & Ix & I). apply filter_In in I as [I P]. cbn [fst] in P.
    rewrite ns_entry in P by exact Hs.
    apply (kv_get_in _ _ _ ASC) in I. destruct (CS ek v I) as (d & Id & CP). destruct CP as [s coll name t Is HK IX Ht|ns i scope' part t I1 I2 I3|r v'].
    - exfalso. assert (CN' : ~ In NUL coll) by (destruct s; cbn in IX; try discriminate; injection IX as <- _; nul_free).
      apply prefix_coll in P as [E _]; [|nul_free|assumption]. destruct s; cbn in IX; try discriminate; injection IX as <- _; discriminate.
    - destruct (CLEAN d ns Id I1) as (ps & NP & GL). destruct (indexables_levels ns ps NP) as [KE LV].
      rewrite LV in I2. destruct (nth_error ps i) as [p|] eqn:NE; [|discriminate]. cbn in I2. injection I2 as <- <-.
      assert (Hb : forall q, In q (firstn i ps) -> ns_part q) by (intros q Iq; apply (proj1 NP); rewrite <- (firstn_skipn i ps); apply in_or_app; auto).
      assert (Hp : ns_part p) by (apply (proj1 NP); eapply nth_error_In; exact NE).
      rewrite ns_entry in P by exact Hb. unfold ns_key in P. rewrite KE in P.
      apply ns_prefix in P as [E P]; [|assumption|assumption| | | | |].
      + exists d, ns, ps, i, p, t, x. repeat (split; [first [assumption|now symmetry]|]). unfold ns_key. rewrite KE.
        unfold NewEncoder. rewrite WriteString_app. cbn [app]. rewrite <- (app_nil_r (bytes_enc _)). apply rt_bytes.
        apply GL. apply nth_error_Some. congruence.
      + intros E. apply LOW in E. exact (TNE x Ix E).
      + apply (tok_free w); auto.
      + apply (tok_free w); auto.
      + apply (tok_free p); auto. apply Hp.
      + apply (tok_free p); auto. apply Hp.
    - exfalso. apply prefix_coll in P as [E _]; [discriminate|nul_free|nul_free]. }
  destruct (visits_collect (fun cv => hd [] (split_byte cv NUL)) L [] []) as (seen & l & V & S1 & S2).
  { intros k v I. destruct (VIS k v I) as (d & ns & ps & i & part & t & x & H). do 2 eexists. apply H. }
  exists l. split; [exact (f_equal (fun r => match r with Some (_, s', stop) => Some (s', negb stop) | None => None end) V)|]. intros f. rewrite S2.
  assert (HD : forall ps i, (forall p, In p ps -> ns_part p) -> hd [] (split_byte ((BSL :: join ps [BSL]) ++ KeySep ++ Itoa (Z.of_nat i)) NUL) = BSL :: join ps [BSL]).
  { intros ps i Hps. unfold KeySep. cbn [app]. change (BSL :: join ps [BSL] ++ NUL :: Itoa (Z.of_nat i)) with ((BSL :: join ps [BSL]) ++ NUL :: Itoa (Z.of_nat i)).
    rewrite split_byte_app; [reflexivity|]. intros [I|I]; [discriminate|]. now apply join_ns_nul in I. }
  split.
  - intros [[]|(cv & I & _ & ->)]. apply S1 in I as [[]|(k & v & r & I & R)].
    destruct (VIS k v I) as (d & ns & ps & i & part & t & x & Id & In' & NP & NE & FI & Ht & Ix & P & R'). rewrite R' in R. injection R as <- _.
    exists d, ns, ps, part, (skipn (S i) ps). split; [exact Id|]. split; [exact In'|]. split; [exact NP|]. split.
    + rewrite <- FI. clear - NE. revert i NE. induction ps as [|q ps IH]; intros [|i] NE; try discriminate; [injection NE as ->; reflexivity|]. cbn [firstn app skipn]. f_equal. apply IH. exact NE.
    + split; [|apply HD, NP]. exists x, t. auto.
  - intros (d & ns & ps & part & after & Id & In' & NP & EP & (x & t & (words' & TW' & Ix) & Ht & P) & ->). right.
    unfold tokenise in TW'. rewrite TW in TW'. injection TW' as <-.
    destruct (CLEAN d ns Id In') as (ps' & NP' & GL).
    assert (ps' = ps).
    { destruct (indexables_levels ns ps NP) as [E1 _], (indexables_levels ns ps' NP') as [E2 _]. rewrite E1 in E2. injection E2 as E2. apply join_ns_inj; [apply NP'|apply NP|auto]. }
    subst ps'. destruct (indexables_levels ns ps NP) as [KE LV]. set (i := length sp).
    assert (NE : nth_error ps i = Some part) by (rewrite EP; unfold i; rewrite nth_error_app2, Nat.sub_diag by lia; reflexivity).
    assert (FI : firstn i ps = sp) by (rewrite EP; unfold i; rewrite firstn_app, Nat.sub_diag, firstn_all, app_nil_r; reflexivity).
    assert (LVi := LV i). rewrite NE, FI in LVi. cbn [option_map] in LVi.
    assert (G := CN d ns i _ _ t Id In' LVi Ht).
    destruct (ldb_Get (s_com st) (newEntry (namespace_IndexCollection (join sp [BSL])) (to_lower t ++ KeySep ++ ns_key ns i))) as [v|] eqn:GE; [|congruence].
    assert (IV : In (newEntry (namespace_IndexCollection (join sp [BSL])) (to_lower t ++ KeySep ++ ns_key ns i), v) L).
    { apply in_flat_map. exists x. split; [exact Ix|]. apply filter_In. split; [now apply kv_get_in|]. cbn [fst].
      unfold newEntry. rewrite has_prefix_app_l, has_prefix_app_l. apply has_prefix_spec in P as [u ->]. rewrite <- !app_assoc. apply has_prefix_app. }
    destruct (CS _ _ GE) as (d' & Id' & CP).
    destruct (VIS _ _ IV) as (d2 & ns2 & ps2 & i2 & part2 & t2 & x2 & Id2 & In2 & NP2 & NE2 & FI2 & Ht2 & Ix2 & P2 & R2).
    assert (PS : ps2 = ps).
    { remember (newEntry (namespace_IndexCollection (join sp [BSL])) (to_lower t ++ KeySep ++ ns_key ns i)) as kk eqn:EQ.
      destruct CP as [s'' coll name t'' Is'' K'' IX'' Ht''|ns3 i3 scope3 part3 t3 J1 J2 J3|r v'].
      - exfalso. assert (CN' : ~ In NUL coll) by (destruct s''; cbn in IX''; try discriminate; injection IX'' as <- _; nul_free).
        rewrite ns_entry in EQ by exact Hs. apply in_newEntry in EQ as [-> _]; [|assumption|nul_free]. destruct s''; cbn in IX''; discriminate.
      - destruct (CLEAN d' ns3 Id' J1) as (ps3 & NP3 & GL3). destruct (indexables_levels ns3 ps3 NP3) as [KE3 LV3].
        rewrite LV3 in J2. destruct (nth_error ps3 i3) as [p3|] eqn:NE3; [|discriminate]. cbn in J2. injection J2 as <- <-.
        assert (Hb : forall q, In q (firstn i3 ps3) -> ns_part q) by (intros q Iq; apply (proj1 NP3); rewrite <- (firstn_skipn i3 ps3); apply in_or_app; auto).
        assert (Hp3 : ns_part p3) by (apply (proj1 NP3); eapply nth_error_In; exact NE3).
        assert (Hp : ns_part part) by (apply (proj1 NP); eapply nth_error_In; exact NE).
        rewrite !ns_entry in EQ by assumption. apply in_newEntry in EQ as [_ EQ]; [|nul_free|nul_free].
        assert (EQ' : to_lower t3 ++ KeySep ++ ns_key ns3 i3 = to_lower t ++ KeySep ++ ns_key ns i).
        { unfold ns_tail in EQ. destruct (firstn i3 ps3) as [|q3 qs3] eqn:F3, sp as [|s0 sp0]; cbn [app] in EQ.
          - exact EQ.
          - exfalso. destruct (to_lower t3) as [|c0 l0] eqn:E0; [discriminate|]. cbn in EQ. injection EQ as -> _.
            apply (tok_free p3 t3 BSL (or_intror eq_refl)); [apply Hp3|exact J3|]. rewrite E0. left. reflexivity.
          - exfalso. destruct (to_lower t) as [|c0 l0] eqn:E0; [discriminate|]. cbn in EQ. injection EQ as <- _.
            apply (tok_free part t BSL (or_intror eq_refl)); [apply Hp|exact Ht|]. rewrite E0. left. reflexivity.
          - injection EQ as EQ. rewrite <- !app_assoc in EQ. apply nul_sep in EQ as [_ EQ]; [exact EQ|exact (join_ns_nul (q3 :: qs3) Hb)|exact (join_ns_nul (s0 :: sp0) Hs)]. }
        apply nul_sep in EQ' as [_ EQ']; [|apply (tok_free p3); auto; apply Hp3|apply (tok_free part); auto; apply Hp].
        unfold ns_key in EQ'. rewrite KE, KE3 in EQ'. apply nul_sep in EQ' as [EQ' EI]; [| |].
        2, 3: intros [I|I]; [discriminate|]; revert I; apply join_ns_nul; first [apply NP|apply NP3].
        injection EQ' as EQ'. apply join_ns_inj in EQ'; [|apply NP3|apply NP]. subst ps3.
        assert (RR : ReadString (WriteString NewEncoder (ns_key ns3 i3)) = Some (ns_key ns3 i3, [])).
        { unfold NewEncoder. rewrite WriteString_app. cbn [app]. rewrite <- (app_nil_r (bytes_enc _)). apply rt_bytes.
          unfold ns_key. rewrite KE3. apply GL3. apply nth_error_Some. congruence. }
        rewrite RR in R2. unfold ns_key in R2. rewrite KE3 in R2. injection R2 as R2.
        change (join ps [BSL] ++ KeySep ++ Itoa (Z.of_nat i3) = join ps2 [BSL] ++ KeySep ++ Itoa (Z.of_nat i2)) in R2.
        apply nul_sep in R2 as [R2 _]; [|apply join_ns_nul; apply NP|apply join_ns_nul; apply NP2].
        symmetry. apply join_ns_inj; [apply NP|apply NP2|exact R2].
      - exfalso. rewrite ns_entry in EQ by exact Hs. apply in_newEntry in EQ as [E _]; [discriminate|nul_free|nul_free]. }
    subst ps2. exists ((BSL :: join ps [BSL]) ++ KeySep ++ Itoa (Z.of_nat i2)). split; [|split; [intros []|]].
    + apply S1. right. do 3 eexists. split; [exact IV|exact R2].
    + symmetry. apply HD. apply NP.
Qed.
End S.
