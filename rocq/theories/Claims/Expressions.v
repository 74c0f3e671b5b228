(** Claims about the types of expressions. *)
From Coq Require Import String.
From Coq Require Import List Bool Arith ZArith Lia.
From Coq.Strings Require Import Byte.
From Verif Require Import Base.Bytes Base.BytesProofs Base.Protocol Codec.CodecSpec Symbols.Symbols Symbols.KeysModel Types.TypesModel Words.TokeniserSpec
  Storage.KvModel Store.FilterModel Store.StoreModel Store.StoreSpec Store.LookupKinds Store.Examples
  Query.QueryModel Query.QueryStoreModel Query.QueryClaimProofs Expr.ExprModel Expr.ExprSpec Expr.ExprStoreModel Expr.ExprProofs.
Import ListNotations.
Open Scope list_scope.
Open Scope nat_scope.

(** ** The file of the examples:
<<
    $shop = new Shop;
    foreach ($shop->orders() as $order) { $order->same()->customer(); }
>>
    where orders() returns Order[], same() returns static and customer()
    returns Customer *)
Definition pos (l c : Z) : position := Pos l c.
Definition new_shop := NewObject KPlain (B "Shop") (pos 1 8) [ty "\Shop"] None.
Definition shop_file : list op :=
  [ new_shop;
    NewVariable (B "$shop") (pos 1 0) [] [] [] true (Some 0);
    NewVariable (B "$shop") (pos 2 9) [] [] [1] true None;
    NewObject (KMember MMethod) (B "orders") (pos 2 16) [] (Some 2);
    NewObject KForeach [] (pos 2 9) [] (Some 3);
    NewVariable (B "$order") (pos 2 29) [] [] [] true (Some 4);
    NewVariable (B "$order") (pos 2 39) [] [] [5] true None;
    NewObject (KMember MMethod) (B "same") (pos 2 47) [] (Some 6);
    NewObject (KMember MMethod) (B "customer") (pos 2 55) [] (Some 7) ].
Fixpoint ops_ok (h : heap) (cs : list op) : Prop :=
  match cs with
  | [] => True
  | c :: cs => op_ok h c /\ match build h c with Some h => ops_ok h cs | None => False end
  end.
Lemma built : forall cs h, analysed h -> ops_ok h cs -> exists h', build_all h cs = Some h' /\ analysed h'.
Proof.
  induction cs as [|c cs IH]; intros h A O; cbn [build_all]; [eauto|]. destruct O as (O1 & O2).
  destruct (build h c) as [h1|] eqn:E; [|destruct O2]. apply IH; [eapply analysed_step; eauto|exact O2].
Qed.
Definition heap_of (cs : list op) : heap := match build_all [] cs with Some h => h | None => [] end.
Definition shop_heap : heap := Eval vm_compute in heap_of shop_file.
Ltac check_ops :=
  lazymatch goal with
  | |- _ /\ _ => split; check_ops
  | |- True => exact I
  | |- Forall _ [] => constructor
  | |- Forall _ (_ :: _) => constructor; check_ops
  | |- exists o, _ => eexists; split; vm_compute; reflexivity
  | |- forall s, _ = Some s -> there _ _ => let s := fresh in let H := fresh in intros s H; first [discriminate H|injection H as <-; unfold there; cbn; lia]
  | |- _ <> _ => discriminate
  | |- _ \/ _ => first [left; reflexivity|right; check_ops]
  | |- _ = _ => reflexivity
  end.
Lemma shop_analysed : analysed shop_heap.
Proof.
  destruct (built shop_file [] analysed_start) as (h & E & A).
  - unfold shop_file. repeat (cbn [ops_ok]; split; [unfold op_ok, new_shop; check_ops|cbv beta iota delta [build merge_earlier GetTypes nth_error]; cbn]); exact I.
  - replace shop_heap with h; [exact A|]. vm_compute in E. injection E as <-. reflexivity.
Qed.

(** what the store would answer *)
Definition shop_lookups : lookups :=
  Lookups (fun _ => []) (fun _ => []) (fun _ => [])
    (fun m _ _ fqn name =>
       match m with
       | MMethod =>
           if str_eqb fqn (B "\Shop") && str_eqb name (B "orders") then [[TS (B "\Order") (B "Order") 1]]
           else if str_eqb fqn (B "\Order") && str_eqb name (B "same") then [[TS (B "\static") (B "static") 0]]
           else if str_eqb fqn (B "\Order") && str_eqb name (B "customer") then [[ty "\Customer"]]
           else []
       | _ => []
       end).

(** ** C83 *)
(** Whatever the file looks like, its objects are built, and the types of each
    are found, whatever was asked for before: neither the analysis nor a
    question for types runs on forever. *)
Theorem C83_always_answered : forall h, analysed h ->
  (forall c, op_ok h c -> exists h', build h c = Some h')
  /\ forall L is h' i, asked L h is h' -> there h i -> exists h2 types, ask L h' i = Some (h2, types).
Proof.
  intros h A. destruct (analysed_ok h A) as (W & ST). split.
  - intros c OK. destruct (build_ok h c W ST OK) as (h' & E & _). eauto.
  - intros L is h' i AS T. destruct (shows_exists h W i T) as (e & SH).
    destruct (ask_ok L h h' i e W ST (asked_fit L h is h' W ST AS) SH) as (h2 & E & _). eauto.
Qed.
Print Assumptions C83_always_answered.

(** As long as the index does not change, the answer for an expression does
    not depend on what was asked for before, in which order and how often. *)
Theorem C83_no_memory_partial : forall L h is h' i h2 h3 types types',
  analysed h -> asked L h is h' -> there h i ->
  ask L h' i = Some (h2, types) -> ask L h i = Some (h3, types') -> types = types'.
Proof.
  intros L h is h' i h2 h3 types types' A AS T E1 E2. destruct (analysed_ok h A) as (W & ST). destruct (shows_exists h W i T) as (e & SH).
  destruct (ask_ok L h h' i e W ST (asked_fit L h is h' W ST AS) SH) as (x & Ex & _).
  destruct (ask_ok L h h i e W ST (asked_fit L h [] h W ST (asked_nothing L h)) SH) as (y & Ey & _). congruence.
Qed.
Print Assumptions C83_no_memory_partial.

(** Every object stands for one expression, and every type found for it is
    derivable for this expression. *)
Theorem C83_only_derivable : forall L h is h' i h2 types,
  analysed h -> asked L h is h' -> there h i -> ask L h' i = Some (h2, types) ->
  exists e, shows h i e /\ (forall e', shows h i e' -> e' = e) /\ forall f n, listed types f n -> derivable L e f n.
Proof.
  intros L h is h' i h2 types A AS T E. destruct (analysed_ok h A) as (W & ST). destruct (shows_exists h W i T) as (e & SH).
  destruct (ask_ok L h h' i e W ST (asked_fit L h is h' W ST AS) SH) as (x & Ex & _). rewrite E in Ex. injection Ex as _ ->.
  exists e. split; [exact SH|]. split; [intros e' H'; exact (proj1 (shows_unique h) i e SH e' H')|]. apply denote_derivable.
Qed.
Print Assumptions C83_only_derivable.

(** If no type comes with two array levels and the members that are visible
    do not depend on the order of the receiver's types, the types found are
    exactly those of the expression. *)
Theorem C83_exact_partial : forall L h is h' i h2 types e,
  analysed h -> asked L h is h' -> ask L h' i = Some (h2, types) -> shows h i e ->
  by_types L -> consistent L e ->
  forall f n, listed types f n <-> typed L e f n.
Proof.
  intros L h is h' i h2 types e A AS E SH BT CO. destruct (analysed_ok h A) as (W & ST).
  destruct (ask_ok L h h' i e W ST (asked_fit L h is h' W ST AS) SH) as (x & Ex & _). rewrite E in Ex. injection Ex as _ ->.
  apply denote_typed; assumption.
Qed.
Print Assumptions C83_exact_partial.

Lemma reduce_ext : forall {M} {MM : Member M} ok ok' (adjust : with_scope M -> with_scope M) l seen, (forall x, In x l -> ok (ws_member x) = ok' (ws_member x)) ->
  reduce ok adjust seen l = reduce ok' adjust seen l.
Proof.
  intros M MM ok ok' adjust l. induction l as [|x l IH]; intros seen H; cbn [reduce]; [reflexivity|].
  rewrite <- (H x (or_introl eq_refl)), !IH by (intros y I; apply H; right; exact I). reflexivity.
Qed.
Lemma names_same : forall r r', (forall f n, listed r f n <-> listed r' f n) -> forall t, In t r -> exists t', In t' r' /\ ts_fqn t' = ts_fqn t.
Proof. intros r r' H t I. destruct (proj1 (H (ts_fqn t) (ts_array t)) ltac:(exists t; auto)) as (t' & I' & E & _). eauto. Qed.
Lemma protected_same : forall same rel scope r r', (forall f n, listed r f n <-> listed r' f n) ->
  (let '(s, q) := same_or_related same rel scope r in s || q) = true -> (let '(s, q) := same_or_related same rel scope r' in s || q) = true.
Proof.
  intros same rel scope r r' H E. destruct (same_or_related same rel scope r) as (s, q) eqn:E1.
  assert (X : exists t, In t r /\ (ts_fqn t = same \/ In (scope, ts_fqn t) rel)).
  { apply orb_true_iff in E. destruct E as [->| ->].
    - destruct (same_or_related_same _ _ _ _ _ E1) as (t & I & F). eauto.
    - destruct (same_or_related_related _ _ _ _ _ E1) as (t & I & F). apply IsRelated_In in F. eauto. }
  destruct X as (t & I & F). destruct (names_same r r' H t I) as (t' & I' & N). rewrite <- N in F.
  exact (same_or_related_some same rel scope r' t' I' F).
Qed.
Lemma protected_eq : forall same rel scope r r', (forall f n, listed r f n <-> listed r' f n) ->
  (let '(s, q) := same_or_related same rel scope r in s || q) = (let '(s, q) := same_or_related same rel scope r' in s || q).
Proof.
  intros same rel scope r r' H. assert (H' : forall f n, listed r' f n <-> listed r f n) by (intros; symmetry; apply H).
  pose proof (protected_same same rel scope r r' H) as P1. pose proof (protected_same same rel scope r' r H') as P2.
  destruct (same_or_related same rel scope r) as (s, q), (same_or_related same rel scope r') as (s', q').
  destruct (s || q), (s' || q'); auto; symmetry; auto.
Qed.
Lemma not_private : forall {M} {MM : Member M} cur n rel r r' (m : M), (forall f n, listed r f n <-> listed r' f n) ->
  (mb_visibility m = Public \/ mb_visibility m = Protected) ->
  IsInherited cur (Access n r) rel m = IsInherited cur (Access n r') rel m
  /\ IsInheritedStatic cur (Access n r) rel m = IsInheritedStatic cur (Access n r') rel m.
Proof.
  intros M MM cur n rel r r' m H V. unfold IsInherited, IsInheritedStatic. cbn [ac_scope_name ac_scope_types].
  pose proof (protected_eq cur rel (mb_scope m) r r' H) as E1. pose proof (protected_eq (mb_scope m) rel (mb_scope m) r r' H) as E2.
  destruct (same_or_related cur rel (mb_scope m) r) as (s1, q1), (same_or_related cur rel (mb_scope m) r') as (s2, q2),
    (same_or_related (mb_scope m) rel (mb_scope m) r) as (s3, q3), (same_or_related (mb_scope m) rel (mb_scope m) r') as (s4, q4).
  destruct V as [V|V]; rewrite V; cbn; rewrite ?andb_true_r, ?E1, ?E2; split; reflexivity.
Qed.

(** The last condition of C83_exact_partial holds of every index without
    private members. *)
Theorem C83_without_private_members : forall (T : Text) (X : XorFilter) st fuel functions class_at,
  (forall fqn name r x, In r (class_methods st fuel fqn name ++ interface_methods st fuel fqn name) -> In x (ih_members r) ->
     m_visibility (ws_member x) = Public \/ m_visibility (ws_member x) = Protected) ->
  (forall fqn name r x, In r (class_props st fuel fqn name) -> In x (ih_members r) ->
     pr_visibility (ws_member x) = Public \/ pr_visibility (ws_member x) = Protected) ->
  by_types (store_lookups st fuel functions class_at).
Proof.
  intros T X st fuel functions class_at HM HP m c n r r' f name H.
  assert (FE : forall A C (g g' : A -> list C) l, (forall x, In x l -> g x = g' x) -> flat_map g l = flat_map g' l).
  { intros A C g g' l. induction l as [|a l IH]; intros E; cbn; [reflexivity|]. rewrite (E a (or_introl eq_refl)), IH; [reflexivity|]. intros x I. apply E. right. exact I. }
  cbn [lk_members store_lookups]. destruct m; f_equal.
  - apply FE. intros i Ii. apply reduce_ext. intros x Ix. apply not_private; [exact H|]. exact (HM _ _ _ _ Ii Ix).
  - apply FE. intros i Ii. apply reduce_ext. intros x Ix. apply not_private; [exact H|]. exact (HP _ _ _ _ Ii Ix).
  - apply FE. intros i Ii. apply reduce_ext. intros x Ix. apply not_private; [exact H|]. exact (HM _ _ _ _ Ii Ix).
  - apply FE. intros i Ii. apply reduce_ext. intros x Ix. apply not_private; [exact H|]. exact (HP _ _ _ _ Ii Ix).
Qed.
Print Assumptions C83_without_private_members.

(** A later occurrence of a variable has all the types of the earlier one,
    whatever it was assigned. *)
Theorem C83_later_occurrence : forall L h name at_ doc this v o global h' e,
  analysed h -> nth_error h v = Some o -> o_kind o = KVariable -> name <> B "$this" ->
  build h (NewVariable name at_ doc this [v] global None) = Some h' ->
  o_name o = name -> (o_global o = true -> global = true) -> shows h v e ->
  exists e', shows h' (length h) e' /\ forall f n, typed L e f n -> exists m, typed L e' f m.
Proof.
  intros L h name at_ doc this v o global h' e A. destruct (analysed_ok h A) as (W & _). intros. eapply later_variable; eauto.
Qed.
Print Assumptions C83_later_occurrence.

Definition one_type (t : type_string) (e : expr) : Prop := consistent shop_lookups e /\ all_of [t] (typed shop_lookups e).
Lemma one_type_intro : forall t e, all_of [t] (typed shop_lookups e) -> (one_level shop_lookups e -> consistent shop_lookups e) -> one_type t e.
Proof.
  intros t e A C. split; [|exact A]. apply C. intros f n m H1 H2. apply A in H1, H2. destruct H1 as (x & [<-|[]] & _ & <-), H2 as (y & [<-|[]] & _ & <-). reflexivity.
Qed.
Lemma single : forall t f n, listed [t] f n <-> ts_fqn t = f /\ ts_array t = n.
Proof. intros t f n. rewrite listed_cons. split; [intros [H|H]; [exact H|destruct (listed_nil _ _ H)]|auto]. Qed.
Lemma shop_by_types : by_types shop_lookups.
Proof. intros m c n r r' f name H. reflexivity. Qed.
Lemma one_member : forall name at_ sn e t d, one_type t e ->
  lk_members shop_lookups MMethod [] (Access sn [t]) (ts_fqn t) name = [[d]] ->
  one_type (if static_b d then TS (ts_fqn t) [] (ts_array t + ts_array d) else d) (EMember MMethod name at_ sn e).
Proof.
  intros name at_ sn e t d (C & A) E. apply one_type_intro; [|intros O; split; [exact O|exact C]].
  intros f n. rewrite (member_typed shop_lookups MMethod name at_ sn e [t] shop_by_types A f n), single. split.
  - intros H. exists t, [d]. split; [left; reflexivity|]. split; [unfold lk_class_at, shop_lookups in *; rewrite E; left; reflexivity|].
    exists d. split; [left; reflexivity|]. destruct (static_b d) eqn:S; unfold declares.
    + right. split; [apply static_b_iff; exact S|]. exists (ts_array t). cbn in H. destruct H as (<- & <-). split; [apply single; auto|reflexivity].
    + left. split; [rewrite <- static_b_iff; congruence|exact H].
  - intros (c & found & [<-|[]] & I & H). unfold lk_class_at, shop_lookups in *. rewrite E in I. destruct I as [<-|[]].
    destruct H as (d' & [<-|[]] & [(NS & H)|(S & k & K & ->)]).
    + destruct (static_b d) eqn:S; [apply static_b_iff in S; contradiction|exact H].
    + apply static_b_iff in S. rewrite S. apply single in K. destruct K as (<- & <-). auto.
Qed.
Definition shop_expr : expr := EVariable (B "$shop") [ty "\Shop"] true (EKnown [ty "\Shop"]).
Definition orders_expr : expr := EMember MMethod (B "orders") (pos 2 9) (B "$shop") shop_expr.
Definition order_expr : expr := EVariable (B "$order") [] true (EElement orders_expr).
Definition customer_expr : expr := EMember MMethod (B "customer") (pos 2 47) [] (EMember MMethod (B "same") (pos 2 39) (B "$order") order_expr).
Lemma customer_type : one_type (ty "\Customer") customer_expr.
Proof.
  assert (S : one_type (ty "\Shop") shop_expr).
  { apply one_type_intro.
    - intros f n. unfold typed. cbn. split; [auto|]. intros [H|[(_ & types & [] & _)|H]]; exact H.
    - intros O. split; [exact O|]. cbn. split; [|exact I]. intros f n m H1 H2. unfold typed in *. cbn in *. apply single in H1, H2. destruct H1 as (_ & <-), H2 as (_ & <-). reflexivity. }
  pose proof (one_member (B "orders") (pos 2 9) (B "$shop") _ _ (TS (B "\Order") (B "Order") 1) S eq_refl) as O.
  assert (OV : one_type (TS (B "\Order") (B "Order") 0) order_expr).
  { destruct O as (C & A). apply one_type_intro.
    - intros f n. unfold typed. cbn [typed_by order_expr]. change (typed_by all_of) with typed. split.
      + intros H. right. right. exists 1%Z. apply single in H. destruct H as (<- & <-). split; [apply A; apply single; auto|split; [discriminate|reflexivity]].
      + intros [H|[(_ & types & [] & _)|(k & H & _ & ->)]]; [destruct (listed_nil _ _ H)|]. apply A in H. apply single in H. destruct H as (<- & <-). apply single. auto.
    - intros OL. split; [exact OL|]. split; [|exact C]. intros f n m (k & H1 & _ & ->) (k' & H2 & _ & ->). apply A in H1, H2. apply single in H1, H2.
      destruct H1 as (_ & <-), H2 as (_ & <-). reflexivity. }
  pose proof (one_member (B "same") (pos 2 39) (B "$order") _ _ (TS (B "\static") (B "static") 0) OV eq_refl) as SM.
  exact (one_member (B "customer") (pos 2 47) [] _ _ (ty "\Customer") SM eq_refl).
Qed.
(** $shop has the type Shop and $order->same()->customer() the type Customer,
    also when it is asked for twice and after $shop. *)
Example C83_hypotheses_met :
  analysed shop_heap /\ by_types shop_lookups
  /\ (shows shop_heap 8 customer_expr /\ consistent shop_lookups customer_expr /\ typed shop_lookups customer_expr (B "\Customer") 0)
  /\ exists h1 h2 h3, ask shop_lookups shop_heap 8 = Some (h1, [ty "\Customer"])
     /\ ask shop_lookups h1 2 = Some (h2, [ty "\Shop"])
     /\ asked shop_lookups shop_heap [8; 2] h2
     /\ ask shop_lookups h2 8 = Some (h3, [ty "\Customer"]).
Proof.
  split; [exact shop_analysed|]. split; [exact shop_by_types|]. destruct customer_type as (C & A). split.
  - split; [|split; [exact C|apply A; apply single; split; reflexivity]].
    enough (SH : exists e, shows shop_heap 8 e /\ e = customer_expr) by (destruct SH as (e & SH & ->); exact SH).
    eexists. split; [|]. eapply (shows_member shop_heap 8); [reflexivity|reflexivity|reflexivity|reflexivity|].
    eapply (shows_member shop_heap 7); [reflexivity|reflexivity|reflexivity|reflexivity|].
    eapply (shows_variable shop_heap 6); [reflexivity|reflexivity|]. apply shows_some. eapply shows_element; [reflexivity|reflexivity|]. apply shows_some.
    eapply (shows_member shop_heap 3); [reflexivity|reflexivity|reflexivity|reflexivity|].
    eapply (shows_variable shop_heap 2); [reflexivity|reflexivity|]. apply shows_some. apply (shows_known shop_heap 0); reflexivity.
    reflexivity.
  - destruct (ask shop_lookups shop_heap 8) as [(h1, t1)|] eqn:E1; [|vm_compute in E1; discriminate E1].
    destruct (ask shop_lookups h1 2) as [(h2, t2)|] eqn:E2; [|vm_compute in E1; injection E1 as <- _; vm_compute in E2; discriminate E2].
    assert (AS : asked shop_lookups shop_heap [8; 2] h2).
    { apply (asked_next _ _ [8] h1 2 h2 t2); [apply (asked_next _ _ [] shop_heap 8 h1 t1); [constructor|unfold there; cbn; lia|exact E1]|unfold there; cbn; lia|exact E2]. }
    destruct (ask shop_lookups h2 8) as [(h3, t3)|] eqn:E3.
    + exists h1, h2, h3. vm_compute in E1. injection E1 as <- <-. vm_compute in E2. injection E2 as <- <-. vm_compute in E3. injection E3 as <- <-.
      split; [reflexivity|]. split; [reflexivity|]. split; [exact AS|reflexivity].
    + vm_compute in E1. injection E1 as <- _. vm_compute in E2. injection E2 as <- _. vm_compute in E3. discriminate E3.
Qed.

(** The types that were found are kept for as long as the file is open and
    not edited.  A file asked about before the file that declares the class
    was indexed does not get the type later. *)
Definition library : doc := Eval cbv delta [a_class] beta iota in Doc uri_a (B "1")
  [ SClass (Class [] (at_line uri_a 1 1) (at_line uri_a 1 9) NoClassModifier (ty "\Shop") (ty "") [] [] None);
    SMethod (Method (at_line uri_a 3 5) (at_line uri_a 3 3) (B "orders") [] [ty "\Order"] [] (ty "\Shop") Public false NoClassModifier None) ] [] [].
Lemma library_ok : Forall event_ok [EvSync library].
Proof. constructor; [|constructor]. unfold library. cbn [event_ok]. ok. Qed.
Definition early_file : list op := [new_shop; NewObject (KMember MMethod) (B "orders") (pos 1 14) [] (Some 0)].
Definition early_heap : heap := Eval vm_compute in heap_of early_file.
Lemma early_analysed : analysed early_heap.
Proof.
  destruct (built early_file [] analysed_start) as (h & E & A).
  - unfold early_file. repeat (cbn [ops_ok]; split; [unfold op_ok, new_shop; check_ops|cbv beta iota delta [build merge_earlier GetTypes nth_error]; cbn]); exact I.
  - replace early_heap with h; [exact A|]. vm_compute in E. injection E as <-. reflexivity.
Qed.
Theorem C83_stale_refuted : exists st st' h h1 i,
  run root_uri [] = Some st /\ Forall event_ok [EvSync library] /\ run root_uri [EvSync library] = Some st'
  /\ analysed h /\ there h i
  /\ let before := store_lookups st 9 (fun n => n) (fun _ => []) in
     let after := store_lookups st' 9 (fun n => n) (fun _ => []) in
     ask before h i = Some (h1, []) /\ option_map snd (ask after h1 i) = Some [] /\ option_map snd (ask after h i) = Some [ty "\Order"].
Proof.
  destruct (run root_uri []) as [st|] eqn:R; [|vm_compute in R; discriminate R].
  destruct (run root_uri [EvSync library]) as [st'|] eqn:R'; [|vm_compute in R'; discriminate R'].
  destruct (ask (store_lookups st 9 (fun n => n) (fun _ => [])) early_heap 1) as [(h1, t)|] eqn:E.
  - exists st, st', early_heap, h1, 1. split; [reflexivity|]. split; [exact library_ok|]. split; [reflexivity|]. split; [exact early_analysed|].
    split; [unfold there; cbn; lia|]. cbn zeta. vm_compute in R. injection R as <-. vm_compute in R'. injection R' as <-. vm_compute in E. injection E as <- <-.
    split; [vm_compute; reflexivity|]. split; [vm_compute; reflexivity|vm_compute; reflexivity].
  - vm_compute in R. injection R as <-. vm_compute in E. discriminate E.
Qed.
Print Assumptions C83_stale_refuted.

(** A type that is known as a class and as an array of it is kept only once:
    of Order|Order[] there are no elements. *)
Definition mixed_file : list op :=
  [ NewVariable (B "$x") (pos 1 0) [ty "\Order"] [] [] false None;
    NewObject (KMember MMethod) (B "all") (pos 1 9) [] (Some 0);
    NewObject KForeach [] (pos 1 9) [] (Some 1) ].
Definition mixed_heap : heap := Eval vm_compute in heap_of mixed_file.
Definition mixed_lookups : lookups :=
  Lookups (fun _ => []) (fun _ => []) (fun _ => []) (fun _ _ _ _ _ => [[ty "\Order"]; [TS (B "\Order") (B "Order") 1]]).
Theorem C83_two_levels_refuted : exists L h i e h1,
  analysed h /\ by_types L /\ shows h i e /\ typed L e (B "\Order") 0 /\ ask L h i = Some (h1, []).
Proof.
  destruct (ask mixed_lookups mixed_heap 2) as [(h1, t)|] eqn:E; [|vm_compute in E; discriminate E].
  exists mixed_lookups, mixed_heap, 2, (EElement (EMember MMethod (B "all") (pos 1 0) (B "$x") (EVariable (B "$x") [ty "\Order"] false ENothing))), h1.
  split.
  { destruct (built mixed_file [] analysed_start) as (h & Eh & A).
    - unfold mixed_file. repeat (cbn [ops_ok]; split; [unfold op_ok; check_ops|cbv beta iota delta [build merge_earlier GetTypes nth_error]; cbn]); exact I.
    - replace mixed_heap with h; [exact A|]. vm_compute in Eh. injection Eh as <-. reflexivity. }
  split; [intros m c n r r' f name H; reflexivity|]. split.
  { match goal with |- shows _ _ ?x => enough (SH : exists e, shows mixed_heap 2 e /\ e = x) by (destruct SH as (e & SH & ->); exact SH) end.
    eexists. split; [|]. eapply (shows_element mixed_heap 2); [reflexivity|reflexivity|]. apply shows_some. eapply (shows_member mixed_heap 1); [reflexivity|reflexivity|reflexivity|reflexivity|].
    eapply (shows_variable mixed_heap 0); [reflexivity|reflexivity|]. constructor. reflexivity. }
  split; [|vm_compute in E; injection E as <- <-; reflexivity].
  exists 1%Z. split; [|split; [discriminate|reflexivity]].
  assert (A : all_of [ty "\Order"] (typed mixed_lookups (EVariable (B "$x") [ty "\Order"] false ENothing))).
  { intros f n. unfold typed. cbn. split; [auto|]. intros [H|[(D & _)|[]]]; [exact H|discriminate D]. }
  assert (BT : by_types mixed_lookups) by (intros m c n r r' f name H; reflexivity).
  apply (member_typed mixed_lookups MMethod (B "all") (pos 1 0) (B "$x") _ _ BT A). exists (ty "\Order"), [TS (B "\Order") (B "Order") 1].
  split; [left; reflexivity|]. split; [right; left; reflexivity|]. exists (TS (B "\Order") (B "Order") 1). split; [left; reflexivity|]. left.
  split; [intros [D|D]; discriminate D|split; reflexivity].
Qed.
Print Assumptions C83_two_levels_refuted.

(** A variable keeps the types written down for what it was assigned before:
    after $x = new Shop; $x = new Order; it still has the type Shop. *)
Definition again_file : list op :=
  [ new_shop; NewVariable (B "$x") (pos 1 0) [] [] [] true (Some 0);
    NewObject KPlain (B "Order") (pos 2 5) [ty "\Order"] None; NewVariable (B "$x") (pos 2 0) [] [] [1] true (Some 2) ].
Definition again_heap : heap := Eval vm_compute in heap_of again_file.
Theorem C83_reassigned_refuted : exists h i o h1 L, analysed h
  /\ nth_error h i = Some o /\ o_kind o = KVariable /\ o_scope o = Some 2 /\ shows h 2 (EKnown [ty "\Order"])
  /\ ask L h i = Some (h1, [ty "\Order"; ty "\Shop"]).
Proof.
  destruct (ask shop_lookups again_heap 3) as [(h1, t)|] eqn:E; [|vm_compute in E; discriminate E].
  exists again_heap, 3. eexists. exists h1, shop_lookups. split.
  { destruct (built again_file [] analysed_start) as (h & Eh & A).
    - unfold again_file. repeat (cbn [ops_ok]; split; [unfold op_ok, new_shop; check_ops|cbv beta iota delta [build merge_earlier GetTypes nth_error]; cbn]); exact I.
    - replace again_heap with h; [exact A|]. vm_compute in Eh. injection Eh as <-. reflexivity. }
  split; [reflexivity|]. split; [reflexivity|]. split; [reflexivity|].
  split; [refine (shows_known again_heap 2 (Obj KPlain (B "Order") (pos 2 5) [ty "\Order"] None false _) _ _); reflexivity|]. vm_compute in E. injection E as <- <-. reflexivity.
Qed.
Print Assumptions C83_reassigned_refuted.
