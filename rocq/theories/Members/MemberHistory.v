(** The members a receiver has, after a history of a workspace. *)
From Coq Require Import String.
From Coq Require Import List Bool Arith ZArith Lia.
From Coq.Strings Require Import Byte.
From Verif Require Import Base.Bytes Base.BytesProofs Symbols.Symbols Symbols.KeysModel Store.FilterModel Store.StoreModel Store.StoreSpec Store.LookupProofs Store.LookupKinds
  Query.QueryModel Query.QueryStoreModel Query.QuerySpec Query.QueryProofs Query.QueryMembers Query.QueryClaimProofs Query.QueryHistorySpec Query.QueryHistory
  Members.MemberModel Members.MemberSpec Members.MemberProofs.
Import ListNotations.
Open Scope list_scope.

Section History.
Context {T : Text} {X : XorFilter} (TOK : text_ok T).
Variables (root : gostr) (h : list event) (st : store).
Hypothesis OK : Forall event_ok h.
Hypothesis RUN : run root h = Some st.
Context {M : Type} {MM : Member M}.
Variables (members : gostr -> gostr -> list M) (mem : gostr -> gostr -> M -> Prop) (name : gostr).
Let db := store_db members st.
Let w := workspace h mem.
Hypothesis SW : same_world no_nul name db w.

Lemma store_classes_named : forall n m c d, In c (db_classes db n) -> In d (db_classes db m) -> ts_fqn (c_name c) = ts_fqn (c_name d) -> In d (db_classes db n).
Proof.
  intros n m c d C D E. apply (db_class TOK root h st OK RUN) in C as (_ & C). apply (db_class TOK root h st OK RUN) in D as (D & _).
  apply (db_class TOK root h st OK RUN). split; [exact D|]. rewrite <- E. exact C.
Qed.
Lemma store_interfaces_named : forall n i, In i (db_interfaces db n) -> ts_fqn (i_name i) = n.
Proof. intros n i I. apply (db_interface TOK root h st OK RUN) in I as (_ & I). exact I. Qed.
Lemma store_traits_named : forall n t, In t (db_traits db n) -> ts_fqn (t_name t) = n.
Proof. intros n i I. apply (db_trait TOK root h st OK RUN) in I as (_ & I). exact I. Qed.
Lemma store_interfaces_nodup : forall n, NoDup (db_interfaces db n).
Proof.
  intros n. destruct (interfaces_exact TOK root h st OK RUN n) as (l & A & E & _). cbn [ask] in A. change (NoDup (answer (GetInterfaces st n))).
  destruct (GetInterfaces st n) as [cs|]; [|constructor]. injection A as <-. exact (NoDup_map_inv _ _ E).
Qed.
Lemma store_traits_nodup : forall n, NoDup (db_traits db n).
Proof.
  intros n. destruct (traits_exact TOK root h st OK RUN n) as (l & A & E & _). cbn [ask] in A. change (NoDup (answer (GetTraits st n))).
  destruct (GetTraits st n) as [cs|]; [|constructor]. injection A as <-. exact (NoDup_map_inv _ _ E).
Qed.
Lemma class_ok : forall n c, In c (db_classes db n) -> no_nul (ts_fqn (c_name c)).
Proof. intros n c C. destruct SW as (_ & _ & _ & _ & S & _). exact (S n c C). Qed.
Lemma interface_ok : forall n c, In c (db_interfaces db n) -> no_nul (ts_fqn (i_name c)).
Proof. intros n c C. destruct SW as (_ & _ & _ & _ & _ & S & _). exact (S n c C). Qed.
Lemma trait_ok : forall n c, In c (db_traits db n) -> no_nul (ts_fqn (t_name c)).
Proof. intros n c C. destruct SW as (_ & _ & _ & _ & _ & _ & S). exact (S n c C). Qed.
Lemma has_member_workspace : forall interfaces traits n m sc, has_member db interfaces traits n name m sc -> has_member w interfaces traits n name m sc.
Proof.
  intros interfaces traits n m sc [c C Bl|i EI I Bl|t ET It W ->].
  - eapply of_class; [|exact (same_belongs no_nul name _ _ SW c m sc (class_ok n c C) Bl)]. destruct SW as (S & _). apply S. exact C.
  - eapply of_interface; [exact EI| |exact (same_interface_belongs no_nul name _ _ SW i m sc (interface_ok n i I) Bl)]. destruct SW as (_ & S & _). apply S. exact I.
  - eapply of_trait; [exact ET| | |reflexivity].
    + destruct SW as (_ & _ & S & _). apply S. exact It.
    + destruct SW as (_ & _ & _ & S & _). apply S; [exact (trait_ok n t It)|exact W].
Qed.

(** ** Any types, any query *)
Variables (relate marks traits interfaces trts : bool) (fuel : nat).
Variables (gc : query M -> class -> option nat -> option (query M * inherited M)) (gi : query M -> interface -> option nat -> option (query M * inherited M))
          (gt : query M -> trait -> option nat -> option (query M * inherited M)).
Variables (score : gostr -> gostr -> Z) (keyword : gostr).
Hypothesis GC : forall q c s, gc q c s = Search score keyword (put_class name c) (GetClassMembers relate marks traits db fuel q c name s).
Hypothesis GI : interfaces = true -> forall q c s, gi q c s = Search score keyword (put_interface name c) (GetInterfaceMembers relate db fuel q c name s).
Hypothesis NK : trts = true -> keyword = [].
Hypothesis GT : trts = true -> forall q c s, gt q c s = Some (GetTraitMembers db q c name).
Variables (ok : relation_map -> M -> bool) (adjust : with_scope M -> with_scope M).
Hypothesis ADJ : forall x, ws_member (adjust x) = ws_member x /\ ws_scope (adjust x) = ws_scope x.
Variables (may must : M -> Prop).
Hypothesis MAY : forall rel m, good_rel relate rel -> ok rel m = true -> may m.
Hypothesis MUST : forall rel m, good_rel relate rel -> must m -> ok rel m = true.

Lemma types_sound : forall q types q' l, asked relate marks traits db q ->
  of_types gc gi gt db interfaces trts (chosen ok adjust) q [] types = Some (q', l) ->
  forall y, In y l -> exists t, In t types /\ has_member w interfaces trts (ts_fqn t) name (ws_member y) (ws_scope y) /\ may (ws_member y) /\ fits score keyword (ws_member y).
Proof.
  intros q types q' l A E y Y.
  apply (asked_true relate marks traits db store_classes_named store_interfaces_named store_traits_named) in A.
  apply (of_types_true relate marks traits db store_classes_named store_interfaces_named store_traits_named score keyword interfaces trts name fuel gc gi gt GC GI NK GT) in E as (_ & H); [|exact A].
  destruct (H y Y) as [[]|(t & ms & It & (P & R) & C)]. exists t. split; [exact It|]. unfold chosen in C.
  apply reduce_first in C as (l1 & x & l2 & EL & -> & OX & _). destruct (ADJ x) as (-> & ->). assert (Ix : In x (ih_members ms)) by (rewrite EL; apply in_or_app; right; left; reflexivity).
  destruct (P x Ix) as (F & H1). split; [|split; [exact (MAY _ _ R OX)|exact F]]. apply has_member_workspace. exact H1.
Qed.

(** ** The first type *)
Hypothesis UN : unique_names h.
Hypothesis NC : forall scope m, mem scope name m -> ~ In COLON (mb_name m).
Lemma once : declared_once db.
Proof. eapply same_once; [apply same_world_sym; exact SW|]. apply (workspace_once TOK). exact UN. Qed.
Lemma only_class : forall n c, class_named h n c -> db_classes db n = [c] /\ db_interfaces db n = [].
Proof.
  intros n c C. assert (I : In c (db_classes db n)) by (apply (db_class TOK root h st OK RUN); exact C). split.
  - apply one_element; [apply (db_classes_nodup TOK root h st OK RUN)|exact I|]. intros d D. exact (one_class _ once n n d c D I (or_introl eq_refl)).
  - apply no_element. intros i J. destruct (no_interface_class _ once _ _ _ _ I J) as (_ & N). apply N. exact (one_interface _ once _ _ J).
Qed.
Lemma only_interface : forall n i, interface_named h n i -> db_classes db n = [] /\ db_interfaces db n = [i].
Proof.
  intros n i C. assert (I : In i (db_interfaces db n)) by (apply (db_interface TOK root h st OK RUN); exact C). split.
  - apply no_element. intros c J. destruct (no_interface_class _ once _ _ _ _ J I) as (_ & N). apply N. exact (one_interface _ once _ _ I).
  - apply one_element; [apply store_interfaces_nodup|exact I|]. intros d D. exact (one_interface' _ once _ _ _ D I).
Qed.
Lemma only_trait : forall n t, trait_named h n t -> db_traits db n = [t].
Proof.
  intros n t C. assert (I : In t (db_traits db n)) by (apply (db_trait TOK root h st OK RUN); exact C).
  apply one_element; [apply store_traits_nodup|exact I|]. intros d D. exact (one_trait' _ once _ _ _ D I).
Qed.
Lemma nothing_is : forall (A : Type) n (named : gostr -> A -> Prop) (l : list A), (forall x, In x l <-> named n x) -> (forall x, ~ named n x) -> l = [].
Proof. intros A n named l H N. apply no_element. intros y Y. apply (N y). apply H. exact Y. Qed.
(** the names collected for a type contain no colon *)
Lemma no_colons : forall n m sc, has_member w interfaces trts n name m sc -> ~ In COLON (mb_name m).
Proof.
  intros n m sc [c _ Bl|i _ _ Bl|t _ _ W _].
  - destruct Bl as [d m A W|d t m A U W|d i j m A I S W]; exact (NC _ _ W).
  - destruct Bl as [j m S W]. exact (NC _ _ W).
  - exact (NC _ _ W).
Qed.
Lemma first_type : forall q t ts q' l, asked relate marks traits db q -> of_types gc gi gt db interfaces trts (chosen ok adjust) q [] (t :: ts) = Some (q', l) ->
  exists q1 ms rest, of_type gc gi gt q (db_classes db (ts_fqn t)) (if interfaces then db_interfaces db (ts_fqn t) else []) (if trts then db_traits db (ts_fqn t) else []) = Some (q1, ms)
    /\ l = chosen ok adjust ms ++ rest /\ (ts = [] -> rest = []) /\ good_rel relate (ih_relations ms).
Proof.
  intros q t ts q' l A E. apply (asked_true relate marks traits db store_classes_named store_interfaces_named store_traits_named) in A.
  assert (O : forall q1 ms, of_type gc gi gt q (db_classes db (ts_fqn t)) (if interfaces then db_interfaces db (ts_fqn t) else []) (if trts then db_traits db (ts_fqn t) else []) = Some (q1, ms) ->
    of_this_type relate db score keyword interfaces trts (ts_fqn t) name ms).
  { intros q1 ms E1. apply (of_type_true relate marks traits db store_classes_named store_interfaces_named store_traits_named score keyword interfaces trts name fuel gc gi gt GC GI NK GT) in E1; [exact (proj2 E1)|exact A]. }
  apply first_of_types in E as (q1 & ms & rest & E1 & EL & ER); [|exact ADJ|].
  - exists q1, ms, rest. split; [exact E1|]. split; [exact EL|]. split; [exact ER|]. exact (proj2 (O q1 ms E1)).
  - intros q1 ms E1 x X'. destruct (O q1 ms E1) as (P & _). apply (no_colons (ts_fqn t) _ (ws_scope x)). apply has_member_workspace. exact (proj2 (P x X')).
Qed.
Lemma class_chosen : forall q n c q2 r rel, unasked q name -> class_named h n c -> (marks = true \/ acyclic w) ->
  (traits = true \/ forall d u m, ancestor w c d -> uses w d u -> ~ mem (ts_fqn (t_name u)) name m) ->
  gc (snd (alloc q)) c (Some (length (q_maps q))) = Some (q2, r) -> good_rel relate rel ->
  offers_between (belongs w c name) (overrides w c) (fun m => may m /\ fits score keyword m) (fun m => must m /\ fits score keyword m) (reduce (ok rel) adjust [] (ih_members r)).
Proof.
  intros q n c q2 r rel U C MA TR G GR. destruct (only_class _ _ C) as (EC & _). rewrite GC in G.
  destruct (search_reduce score keyword _ _ _ _ (ok rel) adjust G) as (q3 & r1 & G1 & ER1 & RD).
  assert (Ic : In c (db_classes db n)) by (rewrite EC; left; reflexivity). assert (NN := class_ok _ _ Ic). assert (SW' := same_world_sym _ _ _ _ SW).
  rewrite RD.
  destruct (offered_members_from relate marks traits db c name fuel (snd (alloc q)) (Some (length (q_maps q))) q3 r1 (alloc_first q name U) once (ex_intro (fun k => In c (db_classes db k)) _ Ic)) with (ok := fun m => ok rel m && fitting score keyword m) (adjust := fun x => adjust (rescored score keyword x)) as (H1 & H2).
  - destruct MA as [MA|[rank RK]]; [left; exact MA|right]. split; [exists rank; intros d p P; apply RK; exact (same_parent_w no_nul name _ _ SW d p P)|]. intros n0. apply (db_classes_nodup TOK root h st OK RUN).
  - destruct TR as [TR|TR]; [left; exact TR|right]. intros d u m An Us Im. apply (TR d u m (same_ancestor no_nul name _ _ SW c d An) (same_uses no_nul name _ _ SW d u Us)).
    destruct Us as (e & _ & _ & Us). assert (NU := trait_ok _ _ Us). destruct SW as (_ & _ & _ & S4 & _). apply S4; [exact NU|exact Im].
  - exact G1.
  - intros x. destruct (ADJ (rescored score keyword x)) as (-> & ->). apply rescored_same.
  - split.
    + intros y Y. destruct (H1 y Y) as (B1 & B2 & B3). apply andb_prop in B2 as (B2 & BF). apply fitting_iff in BF.
      split; [exact (same_belongs no_nul name _ _ SW c _ _ NN B1)|]. split; [split; [exact (MAY _ _ GR B2)|exact BF]|].
      intros m sc Bm EN OV (MU & FM). apply (MUST _ _ GR) in MU. apply fitting_iff in FM. assert (B4 : ok rel m && fitting score keyword m = true) by (rewrite MU, FM; reflexivity).
      rewrite (B3 m sc) in B4; [discriminate B4| |exact EN|].
      * exact (same_belongs no_nul name _ _ SW' c m sc NN Bm).
      * exact (same_overrides no_nul name _ _ SW' c _ _ OV).
    + intros m sc Bm (MU & FM). apply fitting_iff in FM. apply (H2 m sc); [exact (same_belongs no_nul name _ _ SW' c m sc NN Bm)|]. rewrite (MUST _ _ GR MU), FM. reflexivity.
Qed.
Lemma class_first : forall q t ts q' l c, asked relate marks traits db q -> unasked q name -> class_named h (ts_fqn t) c ->
  (trts = true -> forall u, ~ trait_named h (ts_fqn t) u) ->
  (marks = true \/ acyclic w) ->
  (traits = true \/ forall d u m, ancestor w c d -> uses w d u -> ~ mem (ts_fqn (t_name u)) name m) ->
  of_types gc gi gt db interfaces trts (chosen ok adjust) q [] (t :: ts) = Some (q', l) ->
  exists l1 rest, l = l1 ++ rest /\ (ts = [] -> rest = []) /\ offers_between (belongs w c name) (overrides w c) (fun m => may m /\ fits score keyword m) (fun m => must m /\ fits score keyword m) l1.
Proof.
  intros q t ts q' l c A U C NT MA TR E. apply first_type in E as (q1 & ms & rest & E1 & EL & ER & GR); [|exact A].
  destruct (only_class _ _ C) as (EC & EI). rewrite EC, EI in E1.
  assert (ET : (if trts then db_traits db (ts_fqn t) else []) = []).
  { destruct trts; [|reflexivity]. apply (nothing_is _ (ts_fqn t) (trait_named h)); [intros u; apply (db_trait TOK root h st OK RUN)|exact (NT eq_refl)]. }
  rewrite ET in E1. assert (EI' : (if interfaces then [] else []) = @nil interface) by (destruct interfaces; reflexivity). rewrite EI' in E1.
  apply of_type_class in E1 as (q2 & r & G & EM & ERl). exists (chosen ok adjust ms), rest. split; [exact EL|]. split; [exact ER|].
  unfold chosen. rewrite EM. exact (class_chosen q _ c q2 r _ U C MA TR G GR).
Qed.
Lemma rescored_offers : forall (has : M -> scope_symbol -> Prop) rel (l : list (with_scope M)), good_rel relate rel ->
  (forall x, In x l <-> exists m sc, x = WithScope m sc 0%Z /\ has m sc) ->
  offers_between has (fun _ _ => False) (fun m => may m /\ fits score keyword m) (fun m => must m /\ fits score keyword m)
    (reduce (fun m => ok rel m && fitting score keyword m) (fun x => adjust (rescored score keyword x)) [] l).
Proof.
  intros has rel l GR H. split.
  - intros y Y. apply reduce_first in Y as (l1 & x & l2 & EL & -> & OX & _). destruct (ADJ (rescored score keyword x)) as (-> & ->). destruct (rescored_same score keyword x) as (-> & ->).
    assert (Ix : In x l) by (rewrite EL; apply in_or_app; right; left; reflexivity). apply andb_prop in OX as (OX & FX). apply fitting_iff in FX.
    apply H in Ix as (m & sc & -> & Hm). split; [exact Hm|]. split; [split; [exact (MAY _ _ GR OX)|exact FX]|]. intros m' sc' _ _ [].
  - intros m sc Hm (MU & FM). apply (MUST _ _ GR) in MU. apply fitting_iff in FM.
    apply (reduce_complete (fun m => ok rel m && fitting score keyword m) (fun x => adjust (rescored score keyword x)) l (WithScope m sc 0%Z)); [|apply H; eauto|cbn [ws_member]; rewrite MU, FM; reflexivity].
    intros x. destruct (ADJ (rescored score keyword x)) as (-> & _). apply rescored_same.
Qed.
Lemma interface_chosen : forall q n i q2 r rel, unasked q name -> interfaces = true -> interface_named h n i ->
  gi (snd (alloc q)) i (Some (length (q_maps q))) = Some (q2, r) -> good_rel relate rel ->
  offers_between (interface_belongs w i name) (fun _ _ => False) (fun m => may m /\ fits score keyword m) (fun m => must m /\ fits score keyword m) (reduce (ok rel) adjust [] (ih_members r)).
Proof.
  intros q n i q2 r rel U EI C G GR. destruct (only_interface _ _ C) as (EC & EIs). rewrite (GI EI) in G.
  destruct (search_reduce score keyword _ _ _ _ (ok rel) adjust G) as (q3 & r1 & G1 & ER1 & RD).
  assert (Ii : In i (db_interfaces db n)) by (rewrite EIs; left; reflexivity). assert (NN := interface_ok _ _ Ii). assert (SW' := same_world_sym _ _ _ _ SW).
  rewrite RD. apply rescored_offers; [exact GR|]. intros x.
  rewrite (interface_members_belong_from relate db fuel i name _ _ q3 r1 (alloc_first q name U) once (ex_intro (fun k => In i (db_interfaces db k)) _ Ii) G1).
  split; intros (m & sc & E' & Bl); exists m, sc; (split; [exact E'|]).
  - exact (same_interface_belongs no_nul name _ _ SW i m sc NN Bl).
  - exact (same_interface_belongs no_nul name _ _ SW' i m sc NN Bl).
Qed.
Lemma interface_first : forall q t ts q' l i, asked relate marks traits db q -> unasked q name -> interfaces = true -> interface_named h (ts_fqn t) i ->
  (trts = true -> forall u, ~ trait_named h (ts_fqn t) u) ->
  of_types gc gi gt db interfaces trts (chosen ok adjust) q [] (t :: ts) = Some (q', l) ->
  exists l1 rest, l = l1 ++ rest /\ (ts = [] -> rest = []) /\ offers_between (interface_belongs w i name) (fun _ _ => False) (fun m => may m /\ fits score keyword m) (fun m => must m /\ fits score keyword m) l1.
Proof.
  intros q t ts q' l i A U EI C NT E. apply first_type in E as (q1 & ms & rest & E1 & EL & ER & GR); [|exact A].
  destruct (only_interface _ _ C) as (EC & EIs). rewrite EC, EI, EIs in E1.
  assert (ET : (if trts then db_traits db (ts_fqn t) else []) = []).
  { destruct trts; [|reflexivity]. apply (nothing_is _ (ts_fqn t) (trait_named h)); [intros u; apply (db_trait TOK root h st OK RUN)|exact (NT eq_refl)]. }
  rewrite ET in E1. apply of_type_interface in E1 as (q2 & r & G & EM & ERl). exists (chosen ok adjust ms), rest. split; [exact EL|]. split; [exact ER|].
  unfold chosen. rewrite EM. exact (interface_chosen q _ i q2 r _ U EI C G GR).
Qed.
Lemma trait_first : forall q t ts q' l u, asked relate marks traits db q -> unasked q name -> trts = true -> trait_named h (ts_fqn t) u ->
  (forall c, ~ class_named h (ts_fqn t) c) -> (forall i, ~ interface_named h (ts_fqn t) i) ->
  of_types gc gi gt db interfaces trts (chosen ok adjust) q [] (t :: ts) = Some (q', l) ->
  exists l1 rest, l = l1 ++ rest /\ (ts = [] -> rest = []) /\ offers_between (fun m sc => mem (ts_fqn (t_name u)) name m /\ sc = ScTrait u) (fun _ _ => False) (fun m => may m /\ fits score keyword m) (fun m => must m /\ fits score keyword m) l1.
Proof.
  intros q t ts q' l u A U ETr C NCl NI E. apply first_type in E as (q1 & ms & rest & E1 & EL & ER & GR); [|exact A].
  rewrite (nothing_is _ (ts_fqn t) (class_named h) (db_classes db (ts_fqn t))) in E1; [|intros c; apply (db_class TOK root h st OK RUN)|exact NCl].
  rewrite (nothing_is _ (ts_fqn t) (interface_named h) (db_interfaces db (ts_fqn t))) in E1; [|intros c; apply (db_interface TOK root h st OK RUN)|exact NI].
  rewrite ETr, (only_trait _ _ C) in E1. assert (EI' : (if interfaces then [] else []) = @nil interface) by (destruct interfaces; reflexivity). rewrite EI' in E1.
  exists (chosen ok adjust ms), rest. split; [exact EL|]. split; [exact ER|]. unfold chosen.
  assert (EX : forall l seen, reduce (ok (ih_relations ms)) adjust seen l = reduce (fun m => ok (ih_relations ms) m && fitting score keyword m) (fun x => adjust (rescored score keyword x)) seen l).
  { unfold fitting, rescored. rewrite (NK ETr). induction l0 as [|x l0 IH]; intros seen; [reflexivity|]. cbn [reduce]. rewrite andb_true_r, !IH. reflexivity. }
  rewrite EX. apply rescored_offers; [exact GR|].
  unfold of_type in E1. cbn [alloc each] in E1. rewrite (GT ETr) in E1. unfold GetTraitMembers in E1. cbn [with_maps q_trait_cache] in E1.
  rewrite (cache_get_unasked _ _ _ (proj2 (proj2 U))) in E1. cbn [alloc Merge ih_members ih_relations ih_searched app] in E1. injection E1 as _ <-. cbn [ih_members].
  assert (It : In u (db_traits db (ts_fqn t))) by (rewrite (only_trait _ _ C); left; reflexivity). assert (NN := trait_ok _ _ It).
  intros x. rewrite with_scope_In. split.
  - intros (m & Im & ->). exists m, (ScTrait u). split; [reflexivity|]. split; [|reflexivity]. destruct SW as (_ & _ & _ & S4 & _). apply S4; [exact NN|exact Im].
  - intros (m & sc & -> & Im & ->). exists m. split; [|reflexivity]. destruct SW as (_ & _ & _ & S4 & _). apply S4; [exact NN|exact Im].
Qed.
End History.
