(** Proofs about collecting members from a store, and about choosing among them. *)
From Coq Require Import String.
From Coq Require Import List Bool Arith ZArith Lia.
From Coq.Strings Require Import Byte.
From Verif Require Import Base.Bytes Base.BytesProofs Codec.CodecModel Codec.SymbolCodecModel Symbols.Symbols Symbols.KeysModel Storage.KvModel Storage.KvProofs
  Store.FilterModel Store.StoreModel Query.QueryModel Query.QueryStoreModel Query.QuerySpec Query.QueryProofs Query.QueryMembers.
Import ListNotations.
Open Scope list_scope.

(** a store is finite *)
Definition values {A} (read : dec A) (db : leveldb) : list A :=
  flat_map (fun e => match read (snd e) with Some (a, _) => [a] | None => [] end) (ldb db).
Lemma get_all_values : forall A (read : dec A) db p l, get_all read db p = Some l -> incl l (values read db).
Proof.
  intros A read db p l H.
  assert (K : forall es acc l, incl es (ldb db) -> incl acc (values read db) ->
     stream (fun acc k v => match acc with
                    | None => (None, true)
                    | Some l => match read v with
                                | Some (a, _) => (Some (l ++ [a]), false)
                                | None => (None, true)
                                end
                    end) es (Some acc) = Some l -> incl l (values read db)).
  { induction es as [|[k v] es IH]; intros acc l' ES AC E; cbn in E; [injection E as <-; exact AC|].
    destruct (read v) as [[a r]|] eqn:R; [|destruct es; discriminate E].
    eapply IH; [| |exact E]; [intros x X; apply ES; right; exact X|]. apply incl_app; [exact AC|]. intros x [<-|[]].
    unfold values. apply in_flat_map. exists (k, v). split; [apply ES; left; reflexivity|]. cbn. rewrite R. left. reflexivity. }
  unfold get_all in H. rewrite ldb_PrefixStream_eq in H. eapply K; [| |exact H]; [intros x X; apply filter_In in X; tauto|intros x []].
Qed.
Lemma store_db_finite : forall {T : Text} {X : XorFilter} {M} (members : gostr -> gostr -> list M) st, finite_db (store_db members st).
Proof.
  intros T X M members st. exists (values ReadClass (s_db st)), (values ReadInterface (s_db st)). split.
  - intros n c I. cbn [db_classes store_db] in I. unfold Query_GetClasses, GetClasses in I.
    destruct (get_all ReadClass _ _) eqn:E; [|destruct I]. eapply get_all_values; eauto.
  - intros n c I. cbn [db_interfaces store_db] in I. unfold GetInterfaces in I.
    destruct (get_all ReadInterface _ _) eqn:E; [|destruct I]. eapply get_all_values; eauto.
Qed.

(** class constants and properties of a cycle of classes *)
Lemma cycle_diverges : forall {M} relate (db : database M) (P : class -> Prop),
  (forall c, P c -> c_interfaces c = [] /\ ts_IsEmpty (c_extends c) = false /\ exists d, db_classes db (ts_fqn (c_extends c)) = [d] /\ P d) ->
  forall ifuel name fuel q m mi c, P c -> map_at (q_maps q) (ih_searched m) = [] ->
  class_loop relate false false db ifuel fuel q name [c] m mi = None.
Proof.
  intros M relate db P H ifuel name. induction fuel as [|fuel IH]; intros q m mi c Pc E; [reflexivity|].
  rewrite class_loop_step. cbn [andb class_queries]. cbv zeta. destruct (H c Pc) as (NI & NE & d & D & Pd).
  unfold class_implements. rewrite NI. cbn [flat_map merge_interfaces fst snd ih_searched].
  unfold class_push. rewrite NE. cbn [ih_searched]. rewrite E. cbn [negb andb set_mem existsb app]. rewrite D. apply IH; [exact Pd|].
  cbn [class_relate ih_searched]. exact E.
Qed.
Lemma cycle_never_ends : forall {M} relate (db : database M) (P : class -> Prop),
  (forall c, P c -> c_interfaces c = [] /\ ts_IsEmpty (c_extends c) = false /\ exists d, db_classes db (ts_fqn (c_extends c)) = [d] /\ P d) ->
  forall fuel name c, P c -> GetClassMembers relate false false db fuel NewQuery c name None = None.
Proof.
  intros M relate db P H fuel name c Pc. unfold GetClassMembers. cbn [or_alloc alloc]. cbn [cache_get with_maps q_class_cache NewQuery].
  rewrite (cycle_diverges relate db P H); [reflexivity|exact Pc|reflexivity].
Qed.

(** ** Choosing *)
Section Reduce.
Context {M : Type} {MM : Member M}.
Lemma reduce_first : forall ok (adjust : with_scope M -> with_scope M) l seen y,
  In y (reduce ok adjust seen l) <->
  exists l1 x l2, l = l1 ++ x :: l2 /\ y = adjust x /\ ok (ws_member x) = true /\ ~ In (mb_name (ws_member x)) seen
    /\ forall z, In z l1 -> mb_name (ws_member z) = mb_name (ws_member x) -> ok (ws_member z) = false.
Proof.
  intros ok adjust. induction l as [|a l IH]; intros seen y; cbn [reduce].
  - split; [intros []|]. intros (l1 & x & l2 & E & _). destruct l1; discriminate E.
  - destruct (set_mem (mb_name (ws_member a)) seen) eqn:SM.
    + apply set_mem_In in SM. rewrite IH. split.
      * intros (l1 & x & l2 & -> & -> & OK & NS & F). exists (a :: l1), x, l2. repeat (split; [reflexivity || assumption|]).
        intros z [<-|Z] EN; [rewrite <- EN in NS; contradiction|auto].
      * intros ([|b l1] & x & l2 & E & -> & OK & NS & F); injection E as -> ->; [contradiction|].
        exists l1, x, l2. repeat (split; [reflexivity || assumption|]). intros z Z. apply F. right. exact Z.
    + apply set_mem_out in SM. destruct (ok (ws_member a)) eqn:OA.
      * cbn [In]. rewrite IH. split.
        -- intros [<-|(l1 & x & l2 & -> & -> & OK & NS & F)].
           ++ exists [], a, l. repeat (split; [reflexivity || assumption|]). intros z [].
           ++ exists (a :: l1), x, l2. split; [reflexivity|]. split; [reflexivity|]. split; [exact OK|].
              split; [intros J; apply NS; right; exact J|]. intros z [<-|Z] EN; [|auto]. exfalso. apply NS. left. exact EN.
        -- intros ([|b l1] & x & l2 & E & -> & OK & NS & F); injection E as -> ->; [left; reflexivity|]. right.
           exists l1, x, l2. split; [reflexivity|]. split; [reflexivity|]. split; [exact OK|]. split; [|intros z Z; apply F; right; exact Z].
           intros [J|J]; [|contradiction]. specialize (F b (or_introl eq_refl) J). congruence.
      * rewrite IH. split.
        -- intros (l1 & x & l2 & -> & -> & OK & NS & F). exists (a :: l1), x, l2. repeat (split; [reflexivity || assumption|]).
           intros z [<-|Z] EN; [exact OA|auto].
        -- intros ([|b l1] & x & l2 & E & -> & OK & NS & F); injection E as -> ->; [congruence|].
           exists l1, x, l2. repeat (split; [reflexivity || assumption|]). intros z Z. apply F. right. exact Z.
Qed.
Lemma reduce_fresh : forall ok (adjust : with_scope M -> with_scope M), (forall x, mb_name (ws_member (adjust x)) = mb_name (ws_member x)) ->
  forall l seen y, In y (reduce ok adjust seen l) -> ~ In (mb_name (ws_member y)) seen.
Proof. intros ok adjust A l seen y I. apply reduce_first in I as (l1 & x & l2 & _ & -> & _ & NS & _). rewrite A. exact NS. Qed.
Lemma reduce_nodup : forall ok (adjust : with_scope M -> with_scope M), (forall x, mb_name (ws_member (adjust x)) = mb_name (ws_member x)) ->
  forall l seen, NoDup (map (fun y => mb_name (ws_member y)) (reduce ok adjust seen l)).
Proof.
  intros ok adjust A. induction l as [|a l IH]; intros seen; cbn [reduce]; [constructor|].
  destruct (set_mem _ _); [apply IH|]. destruct (ok _); [|apply IH]. cbn [map]. constructor; [|apply IH].
  intros I. apply in_map_iff in I as (y & E & I). apply (reduce_fresh ok adjust A) in I. apply I. left. rewrite E, A. reflexivity.
Qed.
End Reduce.

(** ** Order *)
Lemma in_prefix : forall {A} (a b l1 l2 : list A) x z, a ++ b = l1 ++ x :: l2 -> In z a -> ~ In x a -> In z l1.
Proof.
  intros A a b l1. revert a b. induction l1 as [|y l1 IH]; intros a b l2 x z E I N; destruct a as [|y' a]; try destruct I as [].
  - injection E as -> _. destruct N. left. reflexivity.
  - injection E as -> _. destruct N. left. reflexivity.
  - injection E as -> E. left. assumption.
  - injection E as -> E. right. eapply IH; [exact E|assumption|]. intros J. apply N. right. exact J.
Qed.

Section Order.
Context {M : Type}.
Variable db : database M.
Hypothesis ONCE : declared_once db.
Variable c0 : class.
Lemma generation_unique : forall n d e, generation db c0 n d -> generation db c0 n e -> d = e.
Proof.
  induction n as [|n IH]; intros d e D E; inversion D; subst; inversion E; subst; [reflexivity|].
  assert (d0 = d1) by (eapply IH; eauto). subst d1. eapply same_parent; eauto.
Qed.
Lemma generation_ancestor : forall n d, generation db c0 n d -> ancestor db c0 d.
Proof. induction 1; [constructor|]. eapply ancestor_parent; eauto. Qed.

Variable line : list class.
Hypothesis ND : NoDup line.
Hypothesis FIRST : exists l, line = c0 :: l.
Hypothesis STEP : forall pre d e post, line = pre ++ d :: e :: post -> parent db d e.
Lemma line_generation : forall pre d post, line = pre ++ d :: post -> generation db c0 (length pre) d.
Proof.
  induction pre as [|x pre IH] using rev_ind; intros d post E.
  - destruct FIRST as (l & F). rewrite E in F. injection F as -> _. constructor.
  - rewrite app_length. cbn [length]. rewrite Nat.add_1_r. rewrite <- app_assoc in E. cbn in E. eapply generation_S; [eapply IH; exact E|eapply STEP; exact E].
Qed.
Lemma nearer_earlier : forall e d p post, line = p ++ e :: post -> nearer db c0 e d -> ~ In d (p ++ [e]).
Proof.
  intros e d p post E (i & G & F) I.
  assert (GE := line_generation _ _ _ E).
  assert (exists p' : list class, (length p' <= length p)%nat /\ generation db c0 (length p') d) as (p' & LE & GD).
  { apply in_app_or in I as [I|[<-|[]]]; [|exists p; auto]. apply in_split in I as (p1 & p2 & ->).
    exists p1. split; [rewrite app_length; lia|]. eapply line_generation with (post := p2 ++ e :: post). rewrite E, <- app_assoc. reflexivity. }
  specialize (F _ GD).
  (* e is also the class at place i *)
  destruct (nth_error line i) as [e'|] eqn:NT.
  - apply nth_error_split in NT as (q1 & q2 & E' & L). assert (GE' := line_generation _ _ _ E'). rewrite L in GE'.
    assert (e = e') by (exact (generation_unique i e e' G GE')). subst e'.
    assert (length p = i).
    { rewrite <- L. assert (N := ND). rewrite E in N.
      destruct (NoDup_nth_error line) as [NE _]. specialize (NE ND). apply NE.
      - rewrite E, app_length. cbn. lia.
      - rewrite E at 1. rewrite E'. rewrite !nth_error_app2 by lia. rewrite !Nat.sub_diag. reflexivity. }
    lia.
  - apply nth_error_None in NT. rewrite E, app_length in NT. cbn in NT. lia.
Qed.
End Order.

Lemma override_first_from : forall {M} relate marks traits (db : database M) c0 name fuel q0 s0 q' r,
  first_search q0 name s0 ->
  declared_once db -> (exists n, In c0 (db_classes db n)) ->
  (marks = true \/ (acyclic db /\ forall n, NoDup (db_classes db n))) ->
  GetClassMembers relate marks traits db fuel q0 c0 name s0 = Some (q', r) ->
  forall l1 x l2 m sc, ih_members r = l1 ++ x :: l2 -> In (WithScope m sc 0%Z) (ih_members r) -> overrides db c0 sc (ws_scope x) ->
  In (WithScope m sc 0%Z) l1.
Proof.
  intros M relate marks traits db c0 name fuel q0 s0 q' r FS ONCE C0 LINED E l1 x l2 m sc EM I OV.
  destruct (class_members relate marks traits db name ONCE c0 C0 _ _ _ _ _ FS E) as (line & ifs & ER & ALL & IFS & LN).
  destruct (LN LINED) as (ND & FIRST & STEP). clear LN E.
  assert (OWN : forall e y, In y (with_scope_from (ScClass e) (db_members db (ts_fqn (c_name e)) name)) -> ws_scope y = ScClass e).
  { intros e y Y. apply with_scope_In in Y as (k & _ & ->). reflexivity. }
  assert (TRT : forall e y, In y (trait_members db name (used_traits db e)) -> exists u, ws_scope y = ScTrait u /\ uses db e u).
  { intros e y Y. apply in_flat_map in Y as (u & U & Y). apply with_scope_In in Y as (k & _ & ->). exists u. split; [reflexivity|].
    unfold used_traits in U. apply in_flat_map in U as (t & T1 & T2). destruct (ts_IsEmpty t) eqn:TE; [destruct T2|]. exists t. auto. }
  assert (LEV : forall e y, In y (level traits db name e) -> ws_scope y = ScClass e \/ exists u, ws_scope y = ScTrait u /\ uses db e u).
  { intros e y Y. unfold level in Y. apply in_app_or in Y as [Y|Y]; [left; apply OWN; exact Y|]. destruct traits; [right; apply TRT; exact Y|destruct Y]. }
  assert (EARLY : forall e p post, line = p ++ e :: post -> forall f, In f (p ++ [e]) -> ~ nearer db c0 e f).
  { intros e p post EL f F NR. eapply (nearer_earlier db ONCE c0 line ND FIRST STEP); eauto. }
  assert (INL : forall f p e post, line = p ++ e :: post -> In f (p ++ [e]) -> ancestor db c0 f).
  { intros f p e post EL F. apply ALL. rewrite EL. apply in_or_app. apply in_app_or in F as [F|[<-|[]]]; [auto|right; left; reflexivity]. }
  rewrite ER in I, EM. destruct sc as [e|i|u].
  - (* a class *)
    assert (AE : ancestor db c0 e).
    { destruct (ws_scope x); cbn in OV; [|exact OV|tauto]. destruct OV as (i & G & _). eapply generation_ancestor; eauto. }
    assert (LE := AE). apply ALL in LE. apply in_split in LE as (p & post & EL).
    assert (NP : ~ In e p).
    { intros J. rewrite EL in ND. apply NoDup_remove_2 in ND. apply ND. apply in_or_app. auto. }
    apply in_prefix with (a := flat_map (level traits db name) p ++ with_scope_from (ScClass e) (db_members db (ts_fqn (c_name e)) name))
      (b := (if traits then trait_members db name (used_traits db e) else []) ++ flat_map (level traits db name) post ++ ifs) (x := x) (l2 := l2).
    + rewrite <- EM, EL, flat_map_app. cbn [flat_map]. change (level traits db name e) with (with_scope_from (ScClass e) (db_members db (ts_fqn (c_name e)) name) ++ (if traits then trait_members db name (used_traits db e) else [])). rewrite <- !app_assoc. reflexivity.
    + apply in_app_or in I as [I|I].
      * apply in_flat_map in I as (f & F & I). assert (I' := I). unfold level in I'. apply in_app_or in I' as [I'|I'].
        -- assert (f = e) by (apply OWN in I'; cbn in I'; congruence). subst f. apply in_or_app. right. exact I'.
        -- destruct traits; [|destruct I']. apply TRT in I' as (u & U & _). discriminate U.
      * apply IFS in I as (j & k & _ & _ & W). discriminate W.
    + intros J. apply in_app_or in J as [J|J].
      * apply in_flat_map in J as (f & F & J). assert (F' : In f (p ++ [e])) by (apply in_or_app; auto).
        apply LEV in J as [J|(u & J & U)]; rewrite J in OV; cbn in OV.
        -- exact (EARLY _ _ _ EL f F' OV).
        -- destruct OV as [_ OV]. destruct (OV f (INL _ _ _ _ EL F') U) as [->|NR]; [contradiction|]. exact (EARLY _ _ _ EL f F' NR).
      * apply OWN in J. rewrite J in OV. cbn in OV. eapply EARLY; [exact EL|apply in_or_app; right; left; reflexivity|exact OV].
  - destruct OV.
  - (* a trait *)
    assert (EX : exists e, ancestor db c0 e /\ uses db e u /\ forall f, ancestor db c0 f -> ws_scope x = ScClass f \/ (exists v, ws_scope x = ScTrait v /\ uses db f v) -> nearer db c0 e f).
    { destruct (ws_scope x) as [d|i|v]; cbn in OV.
      - destruct OV as (e & U & NR). exists e. split; [destruct NR as (i & G & _); eapply generation_ancestor; eauto|]. split; [exact U|].
        intros f _ [F|(v & F & _)]; congruence.
      - destruct OV as (e & A & U). exists e. split; [exact A|]. split; [exact U|]. intros f _ [F|(v & F & _)]; discriminate F.
      - destruct OV as (e & A & U & F). exists e. split; [exact A|]. split; [exact U|]. intros f AF [F'|(v' & F' & V)]; [discriminate F'|].
        injection F' as <-. auto. }
    destruct EX as (e & AE & U & NR). assert (LE := AE). apply ALL in LE. apply in_split in LE as (p & post & EL).
    apply in_prefix with (a := flat_map (level traits db name) p ++ level traits db name e) (b := flat_map (level traits db name) post ++ ifs) (x := x) (l2 := l2).
    + rewrite <- EM, EL, flat_map_app. cbn [flat_map]. rewrite <- !app_assoc. reflexivity.
    + (* the member is one of the trait u, which e uses *)
      apply in_app_or in I as [I|I].
      * apply in_flat_map in I as (f & F & I). unfold level in I. apply in_app_or in I as [I|I]; [apply OWN in I; discriminate I|].
        destruct traits; [|destruct I]. apply in_or_app. right. unfold level. apply in_or_app. right.
        unfold trait_members in I. apply in_flat_map in I as (v & V & I). assert (v = u) by (apply with_scope_In in I as (k & _ & W); congruence). subst v.
        unfold trait_members. apply in_flat_map. exists u. split; [|exact I]. unfold used_traits. destruct U as (t & T1 & T2 & T3).
        apply in_flat_map. exists t. split; [exact T1|]. rewrite T2. exact T3.
      * apply IFS in I as (j & k & _ & _ & W). discriminate W.
    + intros J. apply in_app_or in J as [J|J].
      * apply in_flat_map in J as (f & F & J). assert (F' : In f (p ++ [e])) by (apply in_or_app; auto).
        eapply EARLY; [exact EL|exact F'|]. apply NR; [eapply INL; eauto|]. apply LEV. exact J.
      * eapply EARLY; [exact EL|apply in_or_app; right; left; reflexivity|]. apply NR; [exact AE|]. apply LEV. exact J.
Qed.

(** what [reduce] offers of the collected members *)
Lemma offered_members_from : forall {M} {MM : Member M} relate marks traits (db : database M) c0 name fuel q0 s0 q' r,
  first_search q0 name s0 ->
  declared_once db -> (exists n, In c0 (db_classes db n)) ->
  (marks = true \/ (acyclic db /\ forall n, NoDup (db_classes db n))) ->
  (traits = true \/ forall d t m, ancestor db c0 d -> uses db d t -> ~ In m (db_members db (ts_fqn (t_name t)) name)) ->
  GetClassMembers relate marks traits db fuel q0 c0 name s0 = Some (q', r) ->
  forall ok (adjust : with_scope M -> with_scope M),
  (forall x, ws_member (adjust x) = ws_member x /\ ws_scope (adjust x) = ws_scope x) ->
  (forall y, In y (reduce ok adjust [] (ih_members r)) ->
     belongs db c0 name (ws_member y) (ws_scope y) /\ ok (ws_member y) = true
     /\ forall m sc, belongs db c0 name m sc -> mb_name m = mb_name (ws_member y) -> overrides db c0 sc (ws_scope y) -> ok m = false)
  /\ (forall m sc, belongs db c0 name m sc -> ok m = true -> exists y, In y (reduce ok adjust [] (ih_members r)) /\ mb_name (ws_member y) = mb_name m).
Proof.
  intros M MM relate marks traits db c0 name fuel q0 s0 q' r FS ONCE C0 LINED TR E ok adjust ADJ.
  assert (BL := class_members_belong_from relate marks traits db name ONCE c0 C0 fuel q0 s0 q' r FS TR E). split.
  - intros y Y. apply reduce_first in Y as (l1 & x & l2 & EM & -> & OKX & _ & FIRST). destruct (ADJ x) as [-> ->].
    assert (IX : In x (ih_members r)) by (rewrite EM; apply in_or_app; right; left; reflexivity).
    apply BL in IX as (mx & scx & EX & BX). split; [rewrite EX; exact BX|]. split; [exact OKX|].
    intros m sc BM NM OV. apply (FIRST (WithScope m sc 0%Z)); [|exact NM].
    eapply (override_first_from relate marks traits db c0 name fuel q0 s0 q' r FS ONCE C0 LINED E); [exact EM|apply BL; exists m, sc; auto|exact OV].
  - intros m sc BM OKM. assert (I : In (WithScope m sc 0%Z) (ih_members r)) by (apply BL; exists m, sc; auto).
    assert (G : forall l seen, In (WithScope m sc 0%Z) l -> In (mb_name m) seen \/ exists y, In y (reduce ok adjust seen l) /\ mb_name (ws_member y) = mb_name m).
    { clear - OKM ADJ. induction l as [|x l IH]; intros seen I; [destruct I|]. cbn [reduce]. destruct (set_mem (mb_name (ws_member x)) seen) eqn:SM.
      - destruct I as [->|I]; [left; apply set_mem_In in SM; exact SM|apply IH; exact I].
      - destruct (ok (ws_member x)) eqn:OX.
        + destruct (str_eq_dec (mb_name (ws_member x)) (mb_name m)) as [EN|NN].
          * right. exists (adjust x). split; [left; reflexivity|]. rewrite (proj1 (ADJ x)). exact EN.
          * destruct I as [->|I]; [destruct NN; reflexivity|]. destruct (IH (mb_name (ws_member x) :: seen) I) as [[H|H]|(y & Y & YN)]; [contradiction|auto|].
            right. exists y. split; [right; exact Y|exact YN].
        + destruct I as [->|I]; [cbn in OX; congruence|apply IH; exact I]. }
    destruct (G _ [] I) as [[]|H]. exact H.
Qed.
Lemma offered_members : forall {M} {MM : Member M} relate marks traits (db : database M) c0 name fuel q' r,
  declared_once db -> (exists n, In c0 (db_classes db n)) ->
  (marks = true \/ (acyclic db /\ forall n, NoDup (db_classes db n))) ->
  (traits = true \/ forall d t m, ancestor db c0 d -> uses db d t -> ~ In m (db_members db (ts_fqn (t_name t)) name)) ->
  GetClassMembers relate marks traits db fuel NewQuery c0 name None = Some (q', r) ->
  forall ok (adjust : with_scope M -> with_scope M),
  (forall x, ws_member (adjust x) = ws_member x /\ ws_scope (adjust x) = ws_scope x) ->
  (forall y, In y (reduce ok adjust [] (ih_members r)) ->
     belongs db c0 name (ws_member y) (ws_scope y) /\ ok (ws_member y) = true
     /\ forall m sc, belongs db c0 name m sc -> mb_name m = mb_name (ws_member y) -> overrides db c0 sc (ws_scope y) -> ok m = false)
  /\ (forall m sc, belongs db c0 name m sc -> ok m = true -> exists y, In y (reduce ok adjust [] (ih_members r)) /\ mb_name (ws_member y) = mb_name m).
Proof. intros. eapply (offered_members_from relate marks traits db c0 name fuel NewQuery None q' r (first_new name)); eauto. Qed.

Lemma reduce_accessible : forall {M} {MM : Member M} ok (adjust : with_scope M -> with_scope M) l seen y,
  (forall x, ws_member (adjust x) = ws_member x) -> In y (reduce ok adjust seen l) -> ok (ws_member y) = true.
Proof. intros M MM ok adjust l seen y A Y. apply reduce_first in Y as (_ & x & _ & _ & -> & OK & _). rewrite A. exact OK. Qed.
Lemma reduce_complete : forall {M} {MM : Member M} ok (adjust : with_scope M -> with_scope M) l x,
  (forall x, ws_member (adjust x) = ws_member x) -> In x l -> ok (ws_member x) = true ->
  exists y, In y (reduce ok adjust [] l) /\ mb_name (ws_member y) = mb_name (ws_member x).
Proof.
  intros M MM ok adjust l x A I OK.
  assert (G : forall l seen, In x l -> In (mb_name (ws_member x)) seen \/ exists y, In y (reduce ok adjust seen l) /\ mb_name (ws_member y) = mb_name (ws_member x)).
  { clear l I. induction l as [|z l IH]; intros seen I; [destruct I|]. cbn [reduce]. destruct (set_mem (mb_name (ws_member z)) seen) eqn:SM.
    - destruct I as [->|I]; [left; apply set_mem_In in SM; exact SM|apply IH; exact I].
    - destruct (ok (ws_member z)) eqn:OZ.
      + destruct (str_eq_dec (mb_name (ws_member z)) (mb_name (ws_member x))) as [EN|NN].
        * right. exists (adjust z). split; [left; reflexivity|]. rewrite A. exact EN.
        * destruct I as [->|I]; [destruct NN; reflexivity|]. destruct (IH (mb_name (ws_member z) :: seen) I) as [[H|H]|(y & Y & YN)]; [contradiction|auto|].
          right. exists y. split; [right; exact Y|exact YN].
      + destruct I as [->|I]; [congruence|apply IH; exact I]. }
  destruct (G l [] I) as [[]|H]. exact H.
Qed.
Lemma same_or_related_same : forall same rel scope types rl, same_or_related same rel scope types = (true, rl) -> exists t, In t types /\ ts_fqn t = same.
Proof.
  intros same rel scope. induction types as [|t ts IH]; intros rl E; cbn in E; [discriminate E|].
  destruct (str_eqb (ts_fqn t) same) eqn:E1; [apply str_eqb_eq in E1; exists t; cbn; auto|].
  destruct (IsRelated rel scope (ts_fqn t)); [discriminate E|]. destruct (IH rl E) as (u & U & EU). exists u. cbn. auto.
Qed.
Lemma same_or_related_related : forall same rel scope types sm, same_or_related same rel scope types = (sm, true) -> exists t, In t types /\ IsRelated rel scope (ts_fqn t) = true.
Proof.
  intros same rel scope. induction types as [|t ts IH]; intros sm E; cbn in E; [discriminate E|].
  destruct (str_eqb (ts_fqn t) same); [discriminate E|].
  destruct (IsRelated rel scope (ts_fqn t)) eqn:E1; [exists t; cbn; auto|]. destruct (IH sm E) as (u & U & EU). exists u. cbn. auto.
Qed.
Lemma IsRelated_In : forall r a b, IsRelated r a b = true <-> In (a, b) r.
Proof.
  intros r a b. unfold IsRelated. rewrite existsb_exists. split.
  - intros ([x y] & I & E). apply andb_prop in E as [E1 E2]. apply str_eqb_eq in E1, E2. cbn in E1, E2. subst. exact I.
  - intros I. exists (a, b). split; [exact I|]. cbn. rewrite !str_eqb_refl. reflexivity.
Qed.
Lemma same_or_related_some : forall same rel scope types t, In t types -> ts_fqn t = same \/ In (scope, ts_fqn t) rel ->
  (let '(sm, rl) := same_or_related same rel scope types in sm || rl) = true.
Proof.
  intros same rel scope. induction types as [|u ts IH]; intros t I R; [destruct I|]. cbn [same_or_related].
  destruct (str_eqb (ts_fqn u) same) eqn:E1; [reflexivity|]. destruct (IsRelated rel scope (ts_fqn u)) eqn:E2; [reflexivity|].
  destruct I as [->|I]; [|exact (IH t I R)]. destruct R as [R|R].
  - rewrite R, str_eqb_refl in E1. discriminate E1.
  - apply IsRelated_In in R. congruence.
Qed.

(** what is recorded as related *)
Section Relations.
Context {M : Type}.
Variable relate marks traits : bool.
Variable db : database M.
Variable name : gostr.
Definition rel_good (r : relation_map) : Prop := forall a b, In (a, b) r -> relate = true /\ declares_relation db a b.
Definition cache_good (q : query M) : Prop :=
  (forall f i, In (f, name, i) (q_class_cache q) -> rel_good (ih_relations i))
  /\ (forall f i, In (f, name, i) (q_interface_cache q) -> rel_good (ih_relations i))
  /\ (forall f i, In (f, name, i) (q_trait_cache q) -> rel_good (ih_relations i)).
Lemma rel_app : forall a b, rel_good a -> rel_good b -> rel_good (a ++ b).
Proof. intros a b A B' x y I. apply in_app_or in I as [I|I]; auto. Qed.
Lemma rel_nil : rel_good [].
Proof. intros x y []. Qed.
Lemma interface_loop_relations : forall a fuel is maps acc rel r, rel_good rel ->
  interface_loop relate db fuel name a is maps acc rel = Some r -> rel_good (snd r).
Proof.
  intros a. induction fuel as [|fuel IH]; intros is maps acc rel r G E; [discriminate E|]. cbn [interface_loop] in E.
  destruct is as [|i rest]; [injection E as <-; exact G|]. destruct (set_mem _ _); [eapply IH; eauto|].
  apply IH in E; [exact E|]. apply rel_app; [exact G|]. destruct (bool_dec relate true) as [RL|RL]; [|apply not_true_is_false in RL; rewrite RL; apply rel_nil].
  intros x y I. rewrite RL in I. apply in_map_iff in I as (j & EQ & J). injection EQ as <- <-. split; [exact RL|]. right. exists i, j.
  split; [reflexivity|]. split; [|reflexivity]. apply in_flat_map in J as (e & E1 & E2). destruct (ts_IsEmpty e) eqn:EE; [destruct E2|]. exists e. auto.
Qed.
Lemma interface_relations : forall fuel q i s q' r, cache_good q -> GetInterfaceMembers relate db fuel q i name s = Some (q', r) ->
  cache_good q' /\ rel_good (ih_relations r).
Proof.
  intros fuel q i s q' r G E. unfold GetInterfaceMembers in E.
  assert (G' : cache_good (snd (or_alloc q s))) by (destruct s; exact G). destruct (or_alloc q s) as [a q1]. cbn [snd] in G'.
  destruct (cache_get _ _ _) as [x|] eqn:CG.
  - injection E as <- <-. split; [exact G'|]. apply cache_get_In in CG. exact (proj1 (proj2 G') _ _ CG).
  - destruct (interface_loop _ _ _ _ _ _ _ _ _) as [[[maps acc] rel]|] eqn:IL; [|discriminate E]. injection E as <- <-.
    assert (R : rel_good rel) by exact (interface_loop_relations _ _ _ _ _ _ _ rel_nil IL).
    split; [|exact R]. destruct G' as (A & B' & C). split; [exact A|]. split; [|exact C]. intros f j [H|H]; [injection H as <- <-; exact R|eauto].
Qed.
Lemma trait_relations : forall q t q' r, cache_good q -> GetTraitMembers db q t name = (q', r) -> cache_good q' /\ rel_good (ih_relations r).
Proof.
  intros q t q' r G E. unfold GetTraitMembers in E. destruct (cache_get _ _ _) as [x|] eqn:CG.
  - injection E as <- <-. split; [exact G|]. apply cache_get_In in CG. exact (proj2 (proj2 G) _ _ CG).
  - cbn [alloc] in E. injection E as <- <-. split; [|apply rel_nil]. destruct G as (A & B' & C). split; [exact A|]. split; [exact B'|].
    intros f j [H|H]; [injection H as <- <-; apply rel_nil|eauto].
Qed.
Lemma merge_traits_relations : forall ts q m q' m', cache_good q -> rel_good (ih_relations m) ->
  fold_left (fun qm t => let '(q, m) := qm in let '(q, other) := GetTraitMembers db q t name in Merge q m other) ts (q, m) = (q', m') ->
  cache_good q' /\ rel_good (ih_relations m').
Proof.
  induction ts as [|t ts IH]; intros q m q' m' G R E; cbn [fold_left] in E; [injection E as <- <-; auto|].
  destruct (GetTraitMembers db q t name) as [q1 o] eqn:GT. apply trait_relations in GT as [G1 R1]; [|exact G]. unfold Merge in E.
  eapply IH; [| |exact E]; [exact G1|]. cbn [ih_relations]. apply rel_app; assumption.
Qed.
Lemma merge_interfaces_relations : forall fuel is q m q' m', cache_good q -> rel_good (ih_relations m) ->
  merge_interfaces relate db fuel q m is name = Some (q', m') -> cache_good q' /\ rel_good (ih_relations m').
Proof.
  intros fuel. induction is as [|i is IH]; intros q m q' m' G R E; cbn [merge_interfaces] in E; [injection E as <- <-; auto|].
  destruct (GetInterfaceMembers relate db fuel q i name (Some (ih_searched m))) as [[q1 o]|] eqn:GI; [|discriminate E].
  apply interface_relations in GI as [G1 R1]; [|exact G]. unfold Merge in E.
  eapply IH; [| |exact E]; [exact G1|]. cbn [ih_relations]. apply rel_app; assumption.
Qed.
Lemma class_loop_relations : forall ifuel fuel q cs m mi q' m' mi', cache_good q -> rel_good (ih_relations m) -> rel_good (ih_relations mi) ->
  class_loop relate marks traits db ifuel fuel q name cs m mi = Some (q', m', mi') -> rel_good (ih_relations m') /\ rel_good (ih_relations mi').
Proof.
  intros ifuel. induction fuel as [|fuel IH]; intros q cs m mi q' m' mi' G R RI E; [discriminate E|]. cbn [class_loop] in E.
  destruct cs as [|c rest]; [injection E as <- <- <-; auto|]. destruct (marks && _); [exact (IH _ _ _ _ _ _ _ G R RI E)|].
  match type of E with context [if traits then merge_traits db ?A ?B _ _ else _] => set (q0 := A) in E; set (m0 := B) in E end.
  assert (G0 : cache_good q0) by (unfold q0; destruct marks; exact G).
  destruct (if traits then merge_traits db q0 m0 (c_use c) name else (q0, m0)) as [q1 m1] eqn:MT in E.
  assert (GR : cache_good q1 /\ rel_good (ih_relations m1)).
  { destruct traits; [|injection MT as <- <-; auto]. eapply merge_traits_relations; [| |exact MT]; [exact G0|exact R]. }
  destruct GR as [G1 R1]. cbv zeta in E. destruct (merge_interfaces _ _ _ _ _ _ _) as [[q2 mi2]|] eqn:MI; [|discriminate E].
  apply merge_interfaces_relations in MI as [G2 R2]; [|exact G1|exact RI].
  eapply IH; [| | |exact E]; [exact G2| |exact R2]. cbn [ih_relations]. apply rel_app; [exact R1|]. destruct (bool_dec relate true) as [RL|RL]; [|apply not_true_is_false in RL; rewrite RL; apply rel_nil].
  intros x y I. rewrite RL in I. split; [exact RL|]. left. exists c. apply in_app_or in I as [I|I].
  - destruct (negb (ts_IsEmpty (c_extends c))) eqn:NE; cbn [andb] in I; [|destruct I]. destruct (negb _) in I; [|destruct I].
    destruct I as [I|[]]. injection I as <- <-. split; [reflexivity|]. left. split; [|reflexivity]. apply negb_true_iff. exact NE.
  - apply in_map_iff in I as (j & EQ & J). injection EQ as <- <-. split; [reflexivity|]. right. exists j. split; [|reflexivity].
    apply in_flat_map in J as (e & E1 & E2). destruct (ts_IsEmpty e) eqn:EE; [destruct E2|]. exists e. auto.
Qed.
Lemma class_relations_from : forall fuel q c s q' r, cache_good q -> GetClassMembers relate marks traits db fuel q c name s = Some (q', r) -> rel_good (ih_relations r).
Proof.
  intros fuel q c s q' r G E. unfold GetClassMembers in E. assert (G' : cache_good (snd (or_alloc q s))) by (destruct s; exact G). destruct (or_alloc q s) as [a q1]. cbn [snd] in G'.
  destruct (cache_get _ _ _) as [x|] eqn:CG; [injection E as <- <-; apply cache_get_In in CG; exact (proj1 G' _ _ CG)|].
  destruct (class_loop _ _ _ _ _ _ _ _ _ _ _) as [[[q2 m] mi]|] eqn:CL; [|discriminate E]. apply class_loop_relations in CL as [A B'].
  - unfold Merge in E. injection E as <- <-. cbn [ih_relations]. apply rel_app; assumption.
  - exact G'.
  - apply rel_nil.
  - apply rel_nil.
Qed.
Lemma unasked_good : forall q, unasked q name -> cache_good q.
Proof. intros q (A & B' & C). split; [|split]; intros f i I; [destruct (A f i I)|destruct (B' f i I)|destruct (C f i I)]. Qed.
Lemma class_relations : forall fuel c q' r, GetClassMembers relate marks traits db fuel NewQuery c name None = Some (q', r) -> rel_good (ih_relations r).
Proof. intros fuel c q' r E. eapply class_relations_from; [|exact E]. apply unasked_good. apply (first_new name). Qed.
End Relations.

(** the first public member collected *)
Lemma first_public_from : forall {M} {MM : Member M} relate marks traits (db : database M) c0 name fuel q0 s0 q' r,
  first_search q0 name s0 ->
  declared_once db -> (exists n, In c0 (db_classes db n)) ->
  (marks = true \/ (acyclic db /\ forall n, NoDup (db_classes db n))) ->
  (traits = true \/ forall d t m, ancestor db c0 d -> uses db d t -> ~ In m (db_members db (ts_fqn (t_name t)) name)) ->
  GetClassMembers relate marks traits db fuel q0 c0 name s0 = Some (q', r) ->
  match ReduceFirst r with
  | Some x => belongs db c0 name (ws_member x) (ws_scope x) /\ mb_visibility (ws_member x) = Public
      /\ forall m sc, belongs db c0 name m sc -> overrides db c0 sc (ws_scope x) -> mb_visibility m <> Public
  | None => forall m sc, belongs db c0 name m sc -> mb_visibility m <> Public
  end.
Proof.
  intros M MM relate marks traits db c0 name fuel q0 s0 q' r FS ONCE C0 LINED TR E.
  assert (BL := class_members_belong_from relate marks traits db name ONCE c0 C0 fuel q0 s0 q' r FS TR E). unfold ReduceFirst.
  assert (F : forall l, match find (fun x => Z.eqb (mb_visibility (ws_member x)) Public) l with
    | Some x => exists l1 l2, l = l1 ++ x :: l2 /\ mb_visibility (ws_member x) = Public /\ forall z, In z l1 -> mb_visibility (ws_member z) <> Public
    | None => forall z, In z l -> mb_visibility (ws_member z) <> Public
    end).
  { clear. induction l as [|y l IH]; [intros z []|]. cbn [find]. destruct (Z.eqb _ _) eqn:V.
    - apply Z.eqb_eq in V. exists [], l. split; [reflexivity|]. split; [exact V|]. intros z [].
    - apply Z.eqb_neq in V. destruct (find _ l) as [x|].
      + destruct IH as (l1 & l2 & -> & PU & NP). exists (y :: l1), l2. split; [reflexivity|]. split; [exact PU|]. intros z [<-|Z]; auto.
      + intros z [<-|Z]; auto. }
  specialize (F (ih_members r)). destruct (find _ (ih_members r)) as [x|].
  - destruct F as (l1 & l2 & EM & PU & NP).
    assert (IX : In x (ih_members r)) by (rewrite EM; apply in_or_app; right; left; reflexivity).
    apply BL in IX as (mx & scx & EX & BX). split; [rewrite EX; exact BX|]. split; [exact PU|].
    intros m sc BM OV. apply (NP (WithScope m sc 0%Z)).
    eapply (override_first_from relate marks traits db c0 name fuel q0 s0 q' r FS ONCE C0 LINED E); [exact EM|apply BL; exists m, sc; auto|exact OV].
  - intros m sc BM. apply (F (WithScope m sc 0%Z)). apply BL. exists m, sc. auto.
Qed.
Lemma first_public : forall {M} {MM : Member M} relate marks traits (db : database M) c0 name fuel q' r,
  declared_once db -> (exists n, In c0 (db_classes db n)) ->
  (marks = true \/ (acyclic db /\ forall n, NoDup (db_classes db n))) ->
  (traits = true \/ forall d t m, ancestor db c0 d -> uses db d t -> ~ In m (db_members db (ts_fqn (t_name t)) name)) ->
  GetClassMembers relate marks traits db fuel NewQuery c0 name None = Some (q', r) ->
  match ReduceFirst r with
  | Some x => belongs db c0 name (ws_member x) (ws_scope x) /\ mb_visibility (ws_member x) = Public
      /\ forall m sc, belongs db c0 name m sc -> overrides db c0 sc (ws_scope x) -> mb_visibility m <> Public
  | None => forall m sc, belongs db c0 name m sc -> mb_visibility m <> Public
  end.
Proof. intros. eapply (first_public_from relate marks traits db c0 name fuel NewQuery None q' r (first_new name)); eauto. Qed.
