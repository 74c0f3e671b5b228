(** Proofs about the members a receiver has. *)
From Coq Require Import String.
From Coq Require Import List Bool Arith ZArith Lia.
From Coq.Strings Require Import Byte.
From Verif Require Import Base.Bytes Base.BytesProofs Symbols.Symbols Symbols.KeysModel
  Query.QueryModel Query.QueryStoreModel Query.QuerySpec Query.QueryProofs Query.QueryMembers Query.QueryClaimProofs Members.MemberModel Members.MemberSpec.
Import ListNotations.
Open Scope list_scope.

(** ** Only members of what the types name *)
Section Sound.
Context {M : Type} {MM : Member M}.
Variables (relate marks traits : bool) (db : database M).
(** a database whose answers are determined by the names *)
Hypothesis CNAMED : forall n m c d, In c (db_classes db n) -> In d (db_classes db m) -> ts_fqn (c_name c) = ts_fqn (c_name d) -> In d (db_classes db n).
Hypothesis INAMED : forall n i, In i (db_interfaces db n) -> ts_fqn (i_name i) = n.
Hypothesis TNAMED : forall n t, In t (db_traits db n) -> ts_fqn (t_name t) = n.

Definition good_rel (r : relation_map) : Prop := forall a b, In (a, b) r -> relate = true.
Definition of_that_class (f name : gostr) (l : list (with_scope M)) : Prop :=
  forall x, In x l -> exists c n, In c (db_classes db n) /\ ts_fqn (c_name c) = f /\ belongs db c name (ws_member x) (ws_scope x).
Definition of_that_interface (f name : gostr) (l : list (with_scope M)) : Prop :=
  forall x, In x l -> exists i, In i (db_interfaces db f) /\ interface_belongs db i name (ws_member x) (ws_scope x).
Definition of_that_trait (f name : gostr) (l : list (with_scope M)) : Prop :=
  forall x, In x l -> exists t, In t (db_traits db f) /\ In (ws_member x) (db_members db f name) /\ ws_scope x = ScTrait t.
Record true_caches (q : query M) : Prop := {
  tc_class : forall f n i, In (f, n, i) (q_class_cache q) -> of_that_class f n (ih_members i) /\ good_rel (ih_relations i);
  tc_interface : forall f n i, In (f, n, i) (q_interface_cache q) -> of_that_interface f n (ih_members i) /\ good_rel (ih_relations i);
  tc_trait : forall f n i, In (f, n, i) (q_trait_cache q) -> of_that_trait f n (ih_members i) /\ good_rel (ih_relations i) }.

Lemma true_new : true_caches NewQuery.
Proof. constructor; intros f n i []. Qed.
Lemma true_maps : forall q maps, true_caches q -> true_caches (with_maps q maps).
Proof. intros q maps [A B C]. constructor; assumption. Qed.
Lemma true_or_alloc : forall q s a q', or_alloc q s = (a, q') -> true_caches q -> true_caches q'.
Proof. intros q s a q' E T. destruct s; injection E as _ <-; [exact T|apply true_maps; exact T]. Qed.
Lemma good_rel_app : forall a b, good_rel a -> good_rel b -> good_rel (a ++ b).
Proof. intros a b A C x y I. apply in_app_or in I as [I|I]; eauto. Qed.

Lemma interface_loop_true : forall name a i0 fuel is maps acc rel maps' acc' rel', Forall (super_interface db i0) is ->
  (forall x, In x acc -> interface_belongs db i0 name (ws_member x) (ws_scope x)) -> good_rel rel ->
  interface_loop relate db fuel name a is maps acc rel = Some (maps', acc', rel') ->
  (forall x, In x acc' -> interface_belongs db i0 name (ws_member x) (ws_scope x)) /\ good_rel rel'.
Proof.
  intros name a i0. induction fuel as [|fuel IH]; intros is maps acc rel maps' acc' rel' S A R E; [discriminate E|]. cbn [interface_loop] in E.
  destruct is as [|i is]; [injection E as _ <- <-; auto|]. inversion S as [|? ? S1 S2]; subst. destruct (set_mem _ _); [exact (IH _ _ _ _ _ _ _ S2 A R E)|].
  refine (IH _ _ _ _ _ _ _ _ _ _ E).
  - apply Forall_app. split; [exact S2|]. apply Forall_forall. intros j J. apply filter_In in J as (J & _). apply in_flat_map in J as (e & E1 & J).
    destruct (ts_IsEmpty e) eqn:EE; [destruct J|]. eapply super_step; [exact S1|]. exists e. auto.
  - intros x X. apply in_app_or in X as [X|X]; [auto|]. apply with_scope_In in X as (m & Im & ->). cbn [ws_member ws_scope]. constructor; assumption.
  - apply good_rel_app; [exact R|]. intros x y J. destruct relate; [reflexivity|destruct J].
Qed.
Lemma interface_true : forall fuel q i n name s q' r, In i (db_interfaces db n) -> true_caches q -> GetInterfaceMembers relate db fuel q i name s = Some (q', r) ->
  true_caches q' /\ of_that_interface n name (ih_members r) /\ good_rel (ih_relations r).
Proof.
  intros fuel q i n name s q' r Ii TC E. assert (N := INAMED _ _ Ii). unfold GetInterfaceMembers in E. destruct (or_alloc q s) as (a, q1) eqn:O.
  assert (T1 := true_or_alloc _ _ _ _ O TC). destruct (cache_get _ _ _) as [x|] eqn:G.
  - injection E as <- <-. split; [exact T1|]. apply cache_get_In in G. rewrite N in G. exact (tc_interface _ T1 _ _ _ G).
  - destruct (interface_loop _ _ _ _ _ _ _ _ _) as [((maps, acc), rel)|] eqn:L; [|discriminate E]. injection E as <- <-.
    apply (interface_loop_true name a i) in L as (B1 & B2); [|constructor; [constructor|constructor]|intros y []|intros y z []].
    assert (OI : of_that_interface n name acc) by (intros x X; exists i; auto).
    split; [|auto]. destruct T1 as [A1 A2 A3]. constructor; [exact A1| |exact A3]. intros f m j [J|J]; [|auto]. injection J as <- <- <-. rewrite N. auto.
Qed.
Lemma trait_true : forall q t n name q' r, In t (db_traits db n) -> true_caches q -> GetTraitMembers db q t name = (q', r) ->
  true_caches q' /\ of_that_trait n name (ih_members r) /\ good_rel (ih_relations r).
Proof.
  intros q t n name q' r It TC E. assert (N := TNAMED _ _ It). unfold GetTraitMembers in E. destruct (cache_get _ _ _) as [x|] eqn:G.
  - injection E as <- <-. split; [exact TC|]. apply cache_get_In in G. rewrite N in G. exact (tc_trait _ TC _ _ _ G).
  - cbn [alloc] in E. injection E as <- <-. cbn [ih_members ih_relations].
    assert (OT : of_that_trait n name (with_scope_from (ScTrait t) (db_members db (ts_fqn (t_name t)) name))).
    { intros x X. apply with_scope_In in X as (m & Im & ->). exists t. cbn [ws_member ws_scope]. rewrite <- N at 2. auto. }
    assert (GR : good_rel []) by (intros y z []). split; [|auto]. destruct TC as [A1 A2 A3]. constructor; [exact A1|exact A2|].
    intros f m j [J|J]; [|auto]. injection J as <- <- <-. rewrite N in *. auto.
Qed.
Lemma merge_traits_true : forall name us (P : with_scope M -> Prop) q m q' m',
  (forall u t x, In u us -> ts_IsEmpty u = false -> In t (db_traits db (ts_fqn u)) -> In (ws_member x) (db_members db (ts_fqn (t_name t)) name) -> ws_scope x = ScTrait t -> P x) ->
  merge_traits db q m us name = (q', m') -> true_caches q -> Forall P (ih_members m) -> good_rel (ih_relations m) ->
  true_caches q' /\ Forall P (ih_members m') /\ good_rel (ih_relations m').
Proof.
  intros name us P q m q' m' H. unfold merge_traits.
  assert (F : Forall (fun t => exists u, In u us /\ ts_IsEmpty u = false /\ In t (db_traits db (ts_fqn u))) (flat_map (fun u => if ts_IsEmpty u then [] else db_traits db (ts_fqn u)) us)).
  { apply Forall_forall. intros t I. apply in_flat_map in I as (u & U & I). destruct (ts_IsEmpty u) eqn:EU; [destruct I|eauto]. }
  revert q m q' m'. induction F as [|t ts (u & U & EU & It) F IH]; intros q m q' m' E C Cm R; [injection E as <- <-; auto|]. cbn [fold_left] in E.
  destruct (GetTraitMembers db q t name) as (q1, o) eqn:G. destruct (trait_true _ _ _ _ _ _ It C G) as (C1 & Co & R1).
  unfold Merge in E. apply IH in E; [exact E|apply true_maps; exact C1| |apply good_rel_app; assumption].
  cbn [ih_members]. apply Forall_app. split; [exact Cm|]. apply Forall_forall. intros x X. destruct (Co x X) as (t' & T1 & T2 & T3).
  apply (H u t' x U EU T1); [|exact T3]. rewrite (TNAMED _ _ T1). exact T2.
Qed.
Lemma merge_interfaces_true : forall ifuel name (P : with_scope M -> Prop) is q m q' m',
  (forall i, In i is -> exists n, In i (db_interfaces db n) /\ forall j x, In j (db_interfaces db n) -> interface_belongs db j name (ws_member x) (ws_scope x) -> P x) ->
  merge_interfaces relate db ifuel q m is name = Some (q', m') ->
  true_caches q -> Forall P (ih_members m) -> good_rel (ih_relations m) -> true_caches q' /\ Forall P (ih_members m') /\ good_rel (ih_relations m').
Proof.
  intros ifuel name P. induction is as [|i is IH]; intros q m q' m' H E C Cm R; [injection E as <- <-; auto|]. cbn [merge_interfaces] in E.
  destruct (GetInterfaceMembers _ _ _ _ _ _ _) as [(q1, o)|] eqn:G; [|discriminate E]. destruct (H i (or_introl eq_refl)) as (n & I1 & I2).
  destruct (interface_true _ _ _ _ _ _ _ _ I1 C G) as (C1 & Co & R1). unfold Merge in E. apply IH in E; [exact E| |apply true_maps; exact C1| |apply good_rel_app; assumption].
  - intros j J. apply H. right. exact J.
  - cbn [ih_members]. apply Forall_app. split; [exact Cm|]. apply Forall_forall. intros x X. destruct (Co x X) as (j & J1 & J2). eauto.
Qed.
Lemma class_loop_true : forall name c0 ifuel fuel q cs m mi q' m' mi', Forall (ancestor db c0) cs ->
  let P := fun x => belongs db c0 name (ws_member x) (ws_scope x) in
  class_loop relate marks traits db ifuel fuel q name cs m mi = Some (q', m', mi') -> true_caches q ->
  Forall P (ih_members m) -> Forall P (ih_members mi) -> good_rel (ih_relations m) -> good_rel (ih_relations mi) ->
  true_caches q' /\ Forall P (ih_members m') /\ Forall P (ih_members mi') /\ good_rel (ih_relations m') /\ good_rel (ih_relations mi').
Proof.
  intros name c0 ifuel. induction fuel as [|fuel IH]; intros q cs m mi q' m' mi' AN P E C Cm Cmi R Ri; [discriminate E|]. cbn [class_loop] in E.
  destruct cs as [|c cs]; [injection E as <- <- <-; auto|]. inversion AN as [|? ? A1 A2]; subst. destruct (marks && _); [exact (IH _ _ _ _ _ _ _ A2 E C Cm Cmi R Ri)|].
  set (q1 := if marks then _ else q) in E. assert (C1 : true_caches q1) by (unfold q1; destruct marks; [apply true_maps|]; exact C).
  set (m1 := Inherited (ih_members m ++ _) _ _) in E.
  assert (Cm1 : Forall P (ih_members m1)).
  { apply Forall_app. split; [exact Cm|]. apply Forall_forall. intros x X. apply with_scope_In in X as (y & Iy & ->). unfold P. cbn [ws_member ws_scope]. constructor; assumption. }
  destruct (if traits then merge_traits db q1 m1 (c_use c) name else (q1, m1)) as (q2, m2) eqn:Tr.
  assert (H2 : true_caches q2 /\ Forall P (ih_members m2) /\ good_rel (ih_relations m2)).
  { destruct traits; [|injection Tr as <- <-; auto]. apply (merge_traits_true name (c_use c) P) in Tr; [exact Tr| |exact C1|exact Cm1|exact R].
    intros u t x U EU It Im Sx. unfold P. rewrite Sx. eapply trait_member; [exact A1|exists u; auto|exact Im]. }
  destruct H2 as (C2 & Cm2 & R2). cbv zeta in E. destruct (merge_interfaces _ _ _ _ _ _ _) as [(q3, mi3)|] eqn:Mi; [|discriminate E].
  apply (merge_interfaces_true ifuel name P) in Mi as (C3 & Cmi3 & R3); [| |exact C2|exact Cmi|exact Ri].
  - refine (IH _ _ _ _ _ _ _ _ E C3 Cm2 Cmi3 _ R3).
    + destruct (negb _ && negb _) eqn:PU; [|exact A2]. apply andb_prop in PU as [NE _]. apply negb_true_iff in NE. apply Forall_app. split; [exact A2|].
      apply Forall_forall. intros d D. eapply ancestor_parent; [exact A1|]. split; [exact NE|exact D].
    + cbn [ih_relations]. apply good_rel_app; [exact R2|]. destruct relate eqn:RL; [|intros x y []]. intros x y _. exact RL.
  - intros i I. apply in_flat_map in I as (e & E1 & I). destruct (ts_IsEmpty e) eqn:EE; [destruct I|]. exists (ts_fqn e). split; [exact I|].
    intros j [xm xs xz] J IB. unfold P. cbn [ws_member ws_scope] in *. destruct IB as [k mm S W]. eapply interface_member; [exact A1|exists e; split; [exact E1|]; split; [exact EE|exact J]|exact S|exact W].
Qed.
Lemma class_true : forall fuel q c n name s q' r, In c (db_classes db n) -> true_caches q -> GetClassMembers relate marks traits db fuel q c name s = Some (q', r) ->
  true_caches q' /\ (forall x, In x (ih_members r) -> exists d, In d (db_classes db n) /\ ts_fqn (c_name d) = ts_fqn (c_name c) /\ belongs db d name (ws_member x) (ws_scope x)) /\ good_rel (ih_relations r).
Proof.
  intros fuel q c n name s q' r Ic TC E. unfold GetClassMembers in E. destruct (or_alloc q s) as (a, q1) eqn:O.
  assert (T1 := true_or_alloc _ _ _ _ O TC). destruct (cache_get _ _ _) as [x|] eqn:G.
  - injection E as <- <-. split; [exact T1|]. apply cache_get_In in G. destruct (tc_class _ T1 _ _ _ G) as (OC & GR). split; [|exact GR].
    intros y Y. destruct (OC y Y) as (d & k & D1 & D2 & D3). exists d. split; [|split; [exact D2|exact D3]]. eapply CNAMED; [exact Ic|exact D1|congruence].
  - destruct (class_loop _ _ _ _ _ _ _ _ _ _ _) as [((q2, m), mi)|] eqn:L; [|discriminate E].
    apply (class_loop_true name c) in L as (C2 & Cm & Cmi & Rm & Rmi); [|constructor; [constructor|constructor]|exact T1|constructor|constructor|intros y z []|intros y z []].
    unfold Merge in E. injection E as <- <-. cbn [ih_members ih_relations].
    assert (F : Forall (fun x => belongs db c name (ws_member x) (ws_scope x)) (ih_members m ++ ih_members mi)) by (apply Forall_app; auto).
    rewrite Forall_forall in F. assert (GR := good_rel_app _ _ Rm Rmi). split; [|split; [intros x X; exists c; auto|exact GR]].
    destruct C2 as [B1 B2 B3]. constructor; [|exact B2|exact B3]. cbn [q_class_cache with_maps]. intros f k j [J|J]; [|apply B1; exact J]. injection J as <- <- <-. cbn [ih_members ih_relations].
    split; [|exact GR]. intros x X. exists c, n. auto.
Qed.

(** ** Searching among what was collected *)
Variables (score : gostr -> gostr -> Z) (keyword : gostr).
Local Notation fits := (fits score keyword).
Lemma kept_In : forall l x, In x (kept score keyword l) -> (0 < score keyword (mb_name (ws_member x)))%Z /\ exists y, In y l /\ ws_member y = ws_member x /\ ws_scope y = ws_scope x.
Proof.
  intros l x X. unfold kept in X. apply in_map_iff in X as (y & <- & Y). apply filter_In in Y as (Y & MT). cbn [ws_member ws_scope]. split; [apply Z.ltb_lt; exact MT|]. exists y. auto.
Qed.
Lemma skipn_In : forall {A} n (l : list A) x, In x (skipn n l) -> In x l.
Proof. intros A n. induction n as [|n IH]; intros [|a l] x X; cbn in X; auto. right. eauto. Qed.
Lemma overwritten_In : forall l x, In x (overwritten score keyword l) -> exists y, In y l /\ ws_member y = ws_member x /\ ws_scope y = ws_scope x.
Proof.
  intros l x X. unfold overwritten in X. apply in_app_or in X as [X|X]; [exact (proj2 (kept_In l x X))|]. exists x. split; [exact (skipn_In _ _ _ X)|auto].
Qed.
Lemma class_search_true : forall fuel q c n name s q' r, In c (db_classes db n) -> true_caches q ->
  Search score keyword (put_class name c) (GetClassMembers relate marks traits db fuel q c name s) = Some (q', r) ->
  true_caches q' /\ (forall x, In x (ih_members r) -> fits (ws_member x) /\ exists d, In d (db_classes db n) /\ belongs db d name (ws_member x) (ws_scope x)) /\ good_rel (ih_relations r).
Proof.
  intros fuel q c n name s q' r Ic TC E. unfold Search in E. destruct (GetClassMembers _ _ _ _ _ _ _ _ _) as [(q1, r1)|] eqn:G; [|discriminate E].
  destruct (class_true _ _ _ _ _ _ _ _ Ic TC G) as (C1 & B1 & B2). destruct keyword as [|k ks] eqn:EK.
  - injection E as <- <-. split; [exact C1|]. split; [|exact B2]. intros x X. split; [left; reflexivity|]. destruct (B1 x X) as (d & D1 & _ & D3). eauto.
  - rewrite <- EK in *. injection E as <- <-. cbn [ih_members ih_relations]. split; [|split; [|exact B2]].
    + destruct C1 as [A1 A2 A3]. constructor; [|exact A2|exact A3]. cbn [put_class q_class_cache]. intros f m j [J|J]; [|auto]. injection J as <- <- <-. cbn [ih_members ih_relations].
      split; [|exact B2]. intros x X. apply overwritten_In in X as (y & Y & <- & <-). destruct (B1 y Y) as (d & D1 & D2 & D3). eauto.
    + intros x X. apply kept_In in X as (P & y & Y & EM & ES). split; [right; exact P|]. rewrite <- EM, <- ES. destruct (B1 y Y) as (d & D1 & _ & D3). eauto.
Qed.
Lemma interface_search_true : forall fuel q i n name s q' r, In i (db_interfaces db n) -> true_caches q ->
  Search score keyword (put_interface name i) (GetInterfaceMembers relate db fuel q i name s) = Some (q', r) ->
  true_caches q' /\ (forall x, In x (ih_members r) -> fits (ws_member x) /\ exists d, In d (db_interfaces db n) /\ interface_belongs db d name (ws_member x) (ws_scope x)) /\ good_rel (ih_relations r).
Proof.
  intros fuel q c n name s q' r Ic TC E. unfold Search in E. destruct (GetInterfaceMembers _ _ _ _ _ _ _) as [(q1, r1)|] eqn:G; [|discriminate E].
  destruct (interface_true _ _ _ _ _ _ _ _ Ic TC G) as (C1 & B1 & B2). destruct keyword as [|k ks] eqn:EK.
  - injection E as <- <-. split; [exact C1|]. split; [|exact B2]. intros x X. split; [left; reflexivity|]. exact (B1 x X).
  - rewrite <- EK in *. injection E as <- <-. cbn [ih_members ih_relations]. split; [|split; [|exact B2]].
    + destruct C1 as [A1 A2 A3]. constructor; [exact A1| |exact A3]. cbn [put_interface q_interface_cache]. intros f m j [J|J]; [|auto]. injection J as <- <- <-. cbn [ih_members ih_relations].
      split; [|exact B2]. rewrite (INAMED _ _ Ic). intros x X. apply overwritten_In in X as (y & Y & <- & <-). exact (B1 y Y).
    + intros x X. apply kept_In in X as (P & y & Y & EM & ES). split; [right; exact P|]. rewrite <- EM, <- ES. exact (B1 y Y).
Qed.

(** [ms] contains members of the type [n] only *)
Definition of_this_type (interfaces trts : bool) (n name : gostr) (ms : inherited M) : Prop :=
  (forall x, In x (ih_members ms) -> fits (ws_member x) /\ has_member db interfaces trts n name (ws_member x) (ws_scope x)) /\ good_rel (ih_relations ms).
Lemma each_true : forall {A} (get : query M -> A -> option nat -> option (query M * inherited M)) (P : inherited M -> Prop) l q ms q' r,
  (forall m o, P m -> P o -> P (Inherited (ih_members m ++ ih_members o) (ih_relations m ++ ih_relations o) (ih_searched m))) ->
  (forall x q s q' o, In x l -> true_caches q -> get q x s = Some (q', o) -> true_caches q' /\ P o) ->
  true_caches q -> P ms -> each get q ms l = Some (q', r) -> true_caches q' /\ P r.
Proof.
  intros A get P l. induction l as [|x l IH]; intros q ms q' r PM G C Pm E; cbn [each] in E; [injection E as <- <-; auto|].
  destruct (get q x (Some (ih_searched ms))) as [(q1, o)|] eqn:Gx; [|discriminate E]. destruct (G x _ _ _ _ (or_introl eq_refl) C Gx) as (C1 & P1).
  unfold Merge in E. apply IH in E; [exact E|exact PM| |apply true_maps; exact C1|apply PM; assumption]. intros y q2 s q3 o' Y. apply G. right. exact Y.
Qed.
Variables (interfaces trts : bool) (name : gostr) (fuel : nat).
Variables (get_class : query M -> class -> option nat -> option (query M * inherited M))
          (get_interface : query M -> interface -> option nat -> option (query M * inherited M))
          (get_trait : query M -> trait -> option nat -> option (query M * inherited M)).
Hypothesis GC : forall q c s, get_class q c s = Search score keyword (put_class name c) (GetClassMembers relate marks traits db fuel q c name s).
Hypothesis GI : interfaces = true -> forall q c s, get_interface q c s = Search score keyword (put_interface name c) (GetInterfaceMembers relate db fuel q c name s).
Hypothesis NT : trts = true -> keyword = [].
Hypothesis GT : trts = true -> forall q c s, get_trait q c s = Some (GetTraitMembers db q c name).
Lemma of_type_true : forall q n q' r, true_caches q ->
  of_type get_class get_interface get_trait q (db_classes db n) (if interfaces then db_interfaces db n else []) (if trts then db_traits db n else []) = Some (q', r) ->
  true_caches q' /\ of_this_type interfaces trts n name r.
Proof.
  intros q n q' r C E. unfold of_type in E. cbn [alloc] in E.
  assert (PM : forall m o, of_this_type interfaces trts n name m -> of_this_type interfaces trts n name o ->
    of_this_type interfaces trts n name (Inherited (ih_members m ++ ih_members o) (ih_relations m ++ ih_relations o) (ih_searched m))).
  { intros m o (M1 & M2) (O1 & O2). split; [|apply good_rel_app; assumption]. intros x X. apply in_app_or in X as [X|X]; auto. }
  destruct (each get_class _ _ _) as [(q1, m1)|] eqn:E1; [|discriminate E].
  apply (each_true get_class (of_this_type interfaces trts n name)) in E1 as (C1 & P1); [|exact PM| |apply true_maps; exact C|split; [intros x []|intros x y []]].
  2: { intros c q2 s q3 o Ic C2 G. rewrite GC in G. destruct (class_search_true _ _ _ _ _ _ _ _ Ic C2 G) as (C3 & B1 & B2). split; [exact C3|]. split; [|exact B2].
       intros x X. destruct (B1 x X) as (F & d & D1 & D2). split; [exact F|]. eapply of_class; [exact D1|exact D2]. }
  destruct (each get_interface _ _ _) as [(q2, m2)|] eqn:E2; [|discriminate E].
  apply (each_true get_interface (of_this_type interfaces trts n name)) in E2 as (C2 & P2); [|exact PM| |exact C1|exact P1].
  2: { intros i q3 s q4 o Ii C3 G. destruct interfaces eqn:EI; [|destruct Ii]. rewrite (GI eq_refl) in G. destruct (interface_search_true _ _ _ _ _ _ _ _ Ii C3 G) as (C4 & B1 & B2).
       split; [exact C4|]. split; [|exact B2]. intros x X. destruct (B1 x X) as (F & j & J1 & J2). split; [exact F|]. eapply of_interface; [reflexivity|exact J1|exact J2]. }
  apply (each_true get_trait (of_this_type interfaces trts n name)) in E; [exact E|exact PM| |exact C2|exact P2].
  intros t q3 s q4 o It C3 G. destruct trts eqn:ET; [|destruct It]. rewrite (GT eq_refl) in G. injection G as G. destruct (trait_true _ _ _ _ _ _ It C3 G) as (C4 & B1 & B2).
  split; [exact C4|]. split; [|exact B2]. intros x X. destruct (B1 x X) as (u & U1 & U2 & U3). split; [left; exact (NT eq_refl)|]. eapply of_trait; [reflexivity|exact U1| |exact U3].
  rewrite (TNAMED _ _ U1). exact U2.
Qed.
Lemma merge_from_incl : forall (l : list (with_scope M)) {T : Text} seen x, In x (merge_from seen l) -> In x l.
Proof.
  induction l as [|y l IH]; intros T seen x I; [destruct I|]. cbn [merge_from] in I. destruct (set_mem _ _); [right; eauto|]. destruct I as [->|I]; [left; reflexivity|right; eauto].
Qed.
Lemma of_types_true : forall {T : Text} choose types q found q' l, true_caches q -> of_types get_class get_interface get_trait db interfaces trts choose q found types = Some (q', l) ->
  true_caches q' /\ forall y, In y l -> In y found \/ exists t ms, In t types /\ of_this_type interfaces trts (ts_fqn t) name ms /\ In y (choose ms).
Proof.
  intros T choose. induction types as [|t types IH]; intros q found q' l C E; cbn [of_types] in E; [injection E as <- <-; auto|].
  destruct (of_type _ _ _ _ _ _ _) as [(q1, ms)|] eqn:E1; [|discriminate E]. destruct (of_type_true _ _ _ _ C E1) as (C1 & P1).
  apply IH in E as (C2 & H); [|exact C1]. split; [exact C2|]. intros y Y. destruct (H y Y) as [F|(t' & ms' & I' & P' & Y')].
  - unfold MergeWithScope in F. apply merge_from_incl in F. apply in_app_or in F as [F|F]; [auto|]. right. exists t, ms. split; [left; reflexivity|auto].
  - right. exists t', ms'. split; [right; exact I'|auto].
Qed.
Lemma asked_true : forall q, asked relate marks traits db q -> true_caches q.
Proof.
  induction 1 as [|q A IH|q m o A IH|q n c fl nm s q' r A IH Ic E|q n i fl nm s q' r A IH Ii E|q n t nm q' r A IH It E].
  - apply true_new.
  - apply true_maps. exact IH.
  - apply true_maps. exact IH.
  - exact (proj1 (class_true _ _ _ _ _ _ _ _ Ic IH E)).
  - exact (proj1 (interface_true _ _ _ _ _ _ _ _ Ii IH E)).
  - exact (proj1 (trait_true _ _ _ _ _ _ It IH E)).
Qed.
End Sound.

(** ** The access rules without relations *)
Section Access.
Context {M : Type} {MM : Member M}.
Lemma same_unrelated : forall same scope types, same_or_related same [] scope types = (existsb (fun t => str_eqb (ts_fqn t) same) types, false).
Proof.
  intros same scope. induction types as [|t ts IH]; [reflexivity|]. cbn [same_or_related existsb]. destruct (str_eqb (ts_fqn t) same); [reflexivity|]. cbn. exact IH.
Qed.
Lemma exists_type : forall same types, existsb (fun t => str_eqb (ts_fqn t) same) types = true <-> exists t, In t types /\ ts_fqn t = same.
Proof.
  intros same types. rewrite existsb_exists. split; intros (t & I & E); exists t; (split; [exact I|]); apply str_eqb_eq; exact E.
Qed.
Lemma IsInherited_iff : forall cur ac m, IsInherited cur ac [] m = true <-> arrow_access cur ac m.
Proof.
  intros cur ac m. unfold IsInherited, arrow_access. rewrite same_unrelated. cbn [andb]. rewrite orb_false_r.
  destruct (str_eqb_spec (ac_scope_name ac) (B "$this")) as [TH|TH]; cbn [andb].
  - destruct (str_eqb_spec (mb_scope m) cur) as [S|S]; cbn [orb]; [split; auto|].
    destruct (Z.eqb_spec (mb_visibility m) Private) as [P|P]; cbn [negb]; [|split; auto].
    destruct (Z.eqb_spec (mb_visibility m) Public) as [U|U]; [split; auto|]. rewrite exists_type. split; [auto|]. intros [H|[(_ & [H|H])|H]]; try contradiction; exact H.
  - destruct (Z.eqb_spec (mb_visibility m) Public) as [U|U]; [split; auto|]. rewrite exists_type. split; [auto|]. intros [H|[(H & _)|H]]; try contradiction; exact H.
Qed.
Lemma IsInheritedStatic_iff : forall cur ac m, IsInheritedStatic cur ac [] m = true <-> static_access cur ac m.
Proof.
  intros cur ac m. unfold IsInheritedStatic, static_access, IsNameParent. rewrite same_unrelated. cbn [andb]. rewrite orb_false_r.
  destruct (str_eqb (ac_scope_name ac) (B "parent")).
  - destruct (str_eqb_spec (mb_scope m) cur) as [S|S], (Z.eqb_spec (mb_visibility m) Private) as [P|P]; cbn; intuition congruence.
  - assert (RL : IsNameRelative (ac_scope_name ac) = existsb (str_eqb (ac_scope_name ac)) [B "self"; B "static"; B "$this"]).
    { unfold IsNameRelative. cbn [existsb]. rewrite orb_false_r.
      destruct (str_eqb (ac_scope_name ac) (B "static")), (str_eqb (ac_scope_name ac) (B "self")); reflexivity. }
    rewrite RL. destruct (existsb _ _).
    + destruct (str_eqb_spec (mb_scope m) cur) as [S|S], (Z.eqb_spec (mb_visibility m) Private) as [P|P]; cbn; intuition congruence.
    + destruct (mb_static m); cbn [negb]; [|intuition discriminate].
      destruct (Z.eqb_spec (mb_visibility m) Public) as [U|U]; [intuition|]. rewrite exists_type. intuition.
Qed.
Lemma no_relations : forall r, good_rel false r -> r = [].
Proof. intros [|(a, b) r] G; [reflexivity|]. discriminate (G a b (or_introl eq_refl)). Qed.
End Access.

(** ** Merging keeps what was found before *)
Section Merging.
Context {T : Text} {M : Type} {MM : Member M}.
Lemma merge_from_app : forall (a b : list (with_scope M)) seen, exists rest, merge_from seen (a ++ b) = merge_from seen a ++ rest.
Proof.
  induction a as [|x a IH]; intros b seen; [eexists; reflexivity|]. cbn [app merge_from]. destruct (set_mem _ _); [apply IH|].
  destruct (IH b (merge_key x :: seen)) as (rest & E). exists rest. rewrite E. reflexivity.
Qed.
Lemma merge_from_nodup : forall (l : list (with_scope M)) seen, NoDup (map merge_key (merge_from seen l)) /\ forall x, In x (merge_from seen l) -> ~ In (merge_key x) seen.
Proof.
  induction l as [|x l IH]; intros seen; cbn [merge_from]; [split; [constructor|intros x []]|]. destruct (set_mem (merge_key x) seen) eqn:S; [apply IH|].
  apply set_mem_out in S. destruct (IH (merge_key x :: seen)) as (N & H). split.
  - cbn [map]. constructor; [|exact N]. intros I. apply in_map_iff in I as (y & E & I). apply (H y I). left. symmetry. exact E.
  - intros y [<-|I]; [exact S|]. intros J. apply (H y I). right. exact J.
Qed.
Lemma merge_from_id : forall (l : list (with_scope M)) seen, NoDup (map merge_key l) -> (forall x, In x l -> ~ In (merge_key x) seen) -> merge_from seen l = l.
Proof.
  induction l as [|x l IH]; intros seen N H; [reflexivity|]. cbn [merge_from map] in *. inversion N as [|? ? N1 N2]; subst.
  destruct (set_mem (merge_key x) seen) eqn:S; [apply set_mem_In in S; destruct (H x (or_introl eq_refl) S)|]. f_equal. apply IH; [exact N2|].
  intros y Y [J|J]; [|exact (H y (or_intror Y) J)]. apply N1. rewrite J. apply in_map. exact Y.
Qed.
Lemma merge_keeps : forall (a b : list (with_scope M)), NoDup (map merge_key a) -> exists rest, MergeWithScope a b = a ++ rest.
Proof.
  intros a b N. unfold MergeWithScope. destruct (merge_from_app a b []) as (rest & E). exists rest. rewrite E. f_equal. apply merge_from_id; [exact N|]. intros x _ [].
Qed.
Lemma of_types_keeps : forall gc gi gt db interfaces traits choose types q (found : list (with_scope M)) q' l, NoDup (map merge_key found) ->
  of_types gc gi gt db interfaces traits choose q found types = Some (q', l) -> exists rest, l = found ++ rest.
Proof.
  intros gc gi gt db interfaces traits choose. induction types as [|t types IH]; intros q found q' l N E; cbn [of_types] in E.
  - injection E as _ <-. exists []. rewrite app_nil_r. reflexivity.
  - destruct (of_type _ _ _ _ _ _ _) as [(q1, ms)|]; [|discriminate E]. destruct (merge_keeps found (choose ms) N) as (r1 & E1).
    apply IH in E as (r2 & E2); [|apply merge_from_nodup]. rewrite E2, E1, <- app_assoc. eauto.
Qed.

(** the names of members contain no colon *)
Definition COLON : byte := x3a.
Lemma colon_tail : forall k1 k2 n1 n2, ~ In COLON n1 -> ~ In COLON n2 -> k1 ++ COLON :: n1 = k2 ++ COLON :: n2 -> n1 = n2.
Proof.
  induction k1 as [|b k1 IH]; intros k2 n1 n2 N1 N2 E.
  - destruct k2 as [|c k2]; [injection E as E; exact E|]. cbn in E. injection E as <- E. exfalso. apply N1. rewrite E. apply in_or_app. right. left. reflexivity.
  - destruct k2 as [|c k2]; cbn in E; injection E as E1 E2; [|exact (IH k2 n1 n2 N1 N2 E2)]. exfalso. apply N2. rewrite <- E2. apply in_or_app. right. left. reflexivity.
Qed.
Lemma keys_nodup : forall l : list (with_scope M), (forall x, In x l -> ~ In COLON (mb_name (ws_member x))) ->
  NoDup (map (fun y => mb_name (ws_member y)) l) -> NoDup (map merge_key l).
Proof.
  induction l as [|x l IH]; intros NC N; cbn [map] in *; [constructor|]. inversion N as [|? ? N1 N2]; subst. constructor.
  - intros I. apply in_map_iff in I as (y & E & I). apply N1. apply in_map_iff. exists y. split; [|exact I]. unfold merge_key in E.
    change (B "::") with ([COLON] ++ [COLON]) in E. rewrite <- !app_assoc in E. cbn [app] in E.
    change (scope_key (ws_scope y) ++ COLON :: COLON :: mb_name (ws_member y) = scope_key (ws_scope x) ++ [COLON] ++ COLON :: mb_name (ws_member x)) in E.
    change (COLON :: COLON :: mb_name (ws_member y)) with ([COLON] ++ COLON :: mb_name (ws_member y)) in E. rewrite !app_assoc in E.
    apply colon_tail in E; [exact E|apply NC; right; exact I|apply NC; left; reflexivity].
  - apply IH; [|exact N2]. intros y Y. apply NC. right. exact Y.
Qed.
End Merging.

(** ** The collection ends *)
Section Ends.
Context {M : Type} {MM : Member M}.
Variables (relate traits : bool) (db : database M).
Definition longer (q q' : query M) : Prop := (length (q_maps q) <= length (q_maps q'))%nat.
Lemma interface_loop_length : forall name a fuel is maps acc rel maps' acc' rel',
  interface_loop relate db fuel name a is maps acc rel = Some (maps', acc', rel') -> length maps' = length maps.
Proof.
  intros name a. induction fuel as [|fuel IH]; intros is maps acc rel maps' acc' rel' E; [discriminate E|]. cbn [interface_loop] in E.
  destruct is as [|i is]; [injection E as <- _ _; reflexivity|]. destruct (set_mem _ _); [eauto|]. apply IH in E. rewrite E. unfold map_insert. apply map_update_length.
Qed.
Lemma or_alloc_longer : forall (q : query M) s a q', or_alloc q s = (a, q') -> longer q q'.
Proof. intros q s a q' E. unfold longer. destruct s; injection E as _ <-; [lia|]. cbn. rewrite app_length. lia. Qed.
Lemma interface_longer : forall fuel q i name s q' r, GetInterfaceMembers relate db fuel q i name s = Some (q', r) -> longer q q'.
Proof.
  intros fuel q i name s q' r E. unfold GetInterfaceMembers in E. destruct (or_alloc q s) as (a, q1) eqn:O. apply or_alloc_longer in O.
  destruct (cache_get _ _ _); [injection E as <- _; exact O|]. destruct (interface_loop _ _ _ _ _ _ _ _ _) as [((maps, acc), rel)|] eqn:L; [|discriminate E].
  injection E as <- _. apply interface_loop_length in L. unfold longer in *. cbn. lia.
Qed.
Lemma trait_longer : forall q t name q' r, GetTraitMembers db q t name = (q', r) -> longer q q'.
Proof.
  intros q t name q' r E. unfold GetTraitMembers in E. destruct (cache_get _ _ _); [injection E as <- _; unfold longer; lia|]. cbn in E. injection E as <- _. unfold longer. cbn. rewrite app_length. lia.
Qed.
Lemma merge_longer : forall (q : query M) m o, longer q (fst (Merge q m o)).
Proof. intros q m o. unfold longer, Merge. cbn. unfold map_union. rewrite map_update_length. lia. Qed.
Lemma merge_traits_longer : forall us q m name, longer q (fst (merge_traits db q m us name)).
Proof.
  intros us q m name. unfold merge_traits. revert q m. generalize (flat_map (fun u => if ts_IsEmpty u then [] else db_traits db (ts_fqn u)) us).
  induction l as [|t ts IH]; intros q m; [unfold longer; cbn; lia|]. cbn [fold_left]. destruct (GetTraitMembers db q t name) as (q1, o) eqn:G. apply trait_longer in G.
  assert (L := merge_longer q1 m o). destruct (Merge q1 m o) as (q2, m2). cbn [fst] in L. specialize (IH q2 m2). unfold longer in *. lia.
Qed.
Lemma merge_interfaces_longer : forall ifuel name is q m q' m', merge_interfaces relate db ifuel q m is name = Some (q', m') -> longer q q'.
Proof.
  intros ifuel name. induction is as [|i is IH]; intros q m q' m' E; cbn [merge_interfaces] in E; [injection E as <- _; unfold longer; lia|].
  destruct (GetInterfaceMembers _ _ _ _ _ _ _) as [(q1, o)|] eqn:G; [|discriminate E]. apply interface_longer in G. assert (L := merge_longer q1 m o).
  destruct (Merge q1 m o) as (q2, m2). cbn [fst] in L. apply IH in E. unfold longer in *. lia.
Qed.
Lemma class_loop_longer : forall marks ifuel name fuel q cs m mi q' m' mi', class_loop relate marks traits db ifuel fuel q name cs m mi = Some (q', m', mi') -> longer q q'.
Proof.
  intros marks ifuel name. induction fuel as [|fuel IH]; intros q cs m mi q' m' mi' E; [discriminate E|]. destruct cs as [|c cs]; [cbn in E; injection E as <- _ _; unfold longer; lia|].
  rewrite class_loop_step in E. destruct (marks && _); [eauto|]. cbv zeta in E.
  assert (L : longer q (fst (class_queries traits db q m name marks c))).
  { unfold class_queries. set (q1 := if marks then _ else q). assert (L1 : longer q q1) by (unfold q1, longer; destruct marks; [cbn; unfold map_insert; rewrite map_update_length|]; lia).
    destruct traits; [|exact L1]. match goal with |- longer q (fst (merge_traits db q1 ?m1 _ _)) => assert (L2 := merge_traits_longer (c_use c) q1 m1 name) end. unfold longer in *. lia. }
  destruct (merge_interfaces _ _ _ _ _ _ _) as [(q2, mi2)|] eqn:Mi; [|discriminate E]. apply merge_interfaces_longer in Mi. apply IH in E. unfold longer in *. lia.
Qed.
Lemma class_longer : forall marks fuel q c name s q' r, GetClassMembers relate marks traits db fuel q c name s = Some (q', r) -> longer q q'.
Proof.
  intros marks fuel q c name s q' r E. unfold GetClassMembers in E. destruct (or_alloc q s) as (a, q1) eqn:O. apply or_alloc_longer in O.
  destruct (cache_get _ _ _); [injection E as <- _; exact O|]. destruct (class_loop _ _ _ _ _ _ _ _ _ _ _) as [((q2, m), mi)|] eqn:L; [|discriminate E].
  apply class_loop_longer in L. unfold Merge in E. injection E as <- _. unfold longer in *. cbn. unfold map_union. rewrite map_update_length. lia.
Qed.

(** a search that ends in every state with a valid map *)
Definition ends {A} (get : nat -> query M -> A -> option nat -> option (query M * inherited M)) : Prop :=
  forall q x a, (a < length (q_maps q))%nat -> exists n r, longer q (fst r) /\ forall fuel, (n <= fuel)%nat -> get fuel q x (Some a) = Some r.
Lemma each_ends : forall {A} (get : nat -> query M -> A -> option nat -> option (query M * inherited M)) l, (l = [] \/ ends get) ->
  forall q ms, (ih_searched ms < length (q_maps q))%nat ->
  exists n r, longer q (fst r) /\ ih_searched (snd r) = ih_searched ms /\ forall fuel, (n <= fuel)%nat -> each (get fuel) q ms l = Some r.
Proof.
  intros A get l EN. induction l as [|x l IH]; intros q ms V; [exists 0%nat, (q, ms); cbn; unfold longer; auto|].
  destruct EN as [EN|EN]; [discriminate EN|]. destruct (EN q x (ih_searched ms) V) as (n & (q1, o) & L & H). cbn [fst] in L.
  assert (L1 := merge_longer q1 ms o). destruct (Merge q1 ms o) as (q2, ms2) eqn:Mg. cbn [fst] in L1.
  assert (S2 : ih_searched ms2 = ih_searched ms) by (unfold Merge in Mg; injection Mg as _ <-; reflexivity).
  destruct (IH (or_intror EN) q2 ms2) as (n2 & r & Lr & Sr & Hr); [rewrite S2; unfold longer in *; lia|].
  exists (Nat.max n n2), r. split; [unfold longer in *; lia|]. split; [congruence|]. intros fuel F. cbn [each]. rewrite H by lia. rewrite Mg. apply Hr. lia.
Qed.
Lemma of_type_ends : forall (gc : nat -> query M -> class -> option nat -> option (query M * inherited M)) gi gt cs is ts, (cs = [] \/ ends gc) -> (is = [] \/ ends gi) -> (ts = [] \/ ends gt) ->
  forall q, exists n r, forall fuel, (n <= fuel)%nat -> of_type (gc fuel) (gi fuel) (gt fuel) q cs is ts = Some r.
Proof.
  intros gc gi gt cs is ts EC EI ET q. unfold of_type. cbn [alloc].
  destruct (each_ends gc cs EC (with_maps q (q_maps q ++ [[]])) (Inherited [] [] (length (q_maps q)))) as (n1 & (q1, m1) & L1 & S1 & H1); [cbn; rewrite app_length; cbn; lia|].
  cbn [fst snd] in *. destruct (each_ends gi is EI q1 m1) as (n2 & (q2, m2) & L2 & S2 & H2); [rewrite S1; unfold longer in L1; cbn in *; rewrite app_length in L1; cbn in L1; lia|].
  cbn [fst snd] in *. destruct (each_ends gt ts ET q2 m2) as (n3 & r & L3 & S3 & H3); [rewrite S2, S1; unfold longer in *; cbn in *; rewrite app_length in L1; cbn in L1; lia|].
  exists (Nat.max n1 (Nat.max n2 n3)), r. intros fuel F. rewrite H1 by lia. rewrite H2 by lia. apply H3. lia.
Qed.
Lemma of_types_ends : forall {T : Text} (gc : nat -> query M -> class -> option nat -> option (query M * inherited M)) gi gt interfaces trts choose,
  ends gc -> (interfaces = false \/ ends gi) -> (trts = false \/ ends gt) ->
  forall types q found, exists n r, forall fuel, (n <= fuel)%nat -> of_types (gc fuel) (gi fuel) (gt fuel) db interfaces trts choose q found types = Some r.
Proof.
  intros T gc gi gt interfaces trts choose EC EI ET. induction types as [|t types IH]; intros q found; [exists 0%nat, (q, found); reflexivity|].
  destruct (of_type_ends gc gi gt (db_classes db (ts_fqn t)) (if interfaces then db_interfaces db (ts_fqn t) else []) (if trts then db_traits db (ts_fqn t) else [])) with (q := q) as (n1 & (q1, ms) & H1).
  { right. exact EC. } { destruct EI as [->|EI]; auto. } { destruct ET as [->|ET]; auto. }
  destruct (IH q1 (MergeWithScope found (choose ms))) as (n2 & r & H2). exists (Nat.max n1 n2), r. intros fuel F. cbn [of_types]. rewrite H1 by lia. apply H2. lia.
Qed.
Lemma class_ends : forall marks name, finite_db db -> (marks = true \/ acyclic db) -> ends (fun fuel q c s => GetClassMembers relate marks traits db fuel q c name s).
Proof.
  intros marks name FD MA q c a V. destruct (class_members_terminate relate traits db marks FD MA q c name (Some a) V) as (n & (q', r) & H). exists n, (q', r). split; [|exact H].
  eapply class_longer. exact (H n (le_n n)).
Qed.
Lemma interface_ends : forall name, finite_db db -> ends (fun fuel q c s => GetInterfaceMembers relate db fuel q c name s).
Proof.
  intros name FD q c a V. destruct (interface_terminates relate db FD q c name (Some a) V) as (n & (q', r) & _ & H). exists n, (q', r). split; [|exact H].
  eapply interface_longer. exact (H n (le_n n)).
Qed.
Lemma trait_ends : forall name, ends (fun (_ : nat) q t (_ : option nat) => Some (GetTraitMembers db q t name)).
Proof.
  intros name q t a V. exists 0%nat, (GetTraitMembers db q t name). split; [|reflexivity]. destruct (GetTraitMembers db q t name) eqn:E. exact (trait_longer _ _ _ _ _ E).
Qed.
End Ends.

(** ** Searching ends, too, and chooses among all that was collected *)
Section SearchEnds.
Context {M : Type} {MM : Member M}.
Variables (score : gostr -> gostr -> Z) (keyword : gostr).
Lemma search_ends : forall {A} (put : A -> query M -> inherited M -> query M) (get : nat -> query M -> A -> option nat -> option (query M * inherited M)),
  (forall x q i, q_maps (put x q i) = q_maps q) -> ends get -> ends (fun fuel q x s => Search score keyword (put x) (get fuel q x s)).
Proof.
  intros A put get PM EN q x a V. destruct (EN q x a V) as (n & (q1, r) & L & H). cbn [fst] in L. destruct keyword as [|k ks] eqn:EK.
  - exists n, (q1, r). split; [exact L|]. intros fuel F. rewrite H by exact F. reflexivity.
  - exists n, (put x q1 (Inherited (overwritten score (k :: ks) (ih_members r)) (ih_relations r) (ih_searched r)), Inherited (kept score (k :: ks) (ih_members r)) (ih_relations r) (ih_searched r)).
    split; [|intros fuel F; rewrite H by exact F; reflexivity]. unfold longer in *. cbn [fst]. rewrite PM. exact L.
Qed.
Definition fitting (m : M) : bool := match keyword with [] => true | _ => (0 <? score keyword (mb_name m))%Z end.
Lemma fitting_iff : forall m, fitting m = true <-> fits score keyword m.
Proof.
  intros m. unfold fitting, fits. destruct keyword as [|k ks]; [intuition|]. rewrite Z.ltb_lt. split; [auto|]. intros [H|H]; [discriminate H|exact H].
Qed.
Definition rescored (x : with_scope M) : with_scope M :=
  match keyword with [] => x | _ => WithScope (ws_member x) (ws_scope x) (score keyword (mb_name (ws_member x))) end.
Lemma rescored_same : forall x, ws_member (rescored x) = ws_member x /\ ws_scope (rescored x) = ws_scope x.
Proof. intros x. unfold rescored. destruct keyword; auto. Qed.
Lemma search_reduce : forall put found q r ok adjust, Search score keyword put found = Some (q, r) ->
  exists q1 r1, found = Some (q1, r1) /\ ih_relations r = ih_relations r1
    /\ reduce ok adjust [] (ih_members r) = reduce (fun m => ok m && fitting m) (fun x => adjust (rescored x)) [] (ih_members r1).
Proof.
  intros put [(q1, r1)|] q r ok adjust E; [|discriminate E]. exists q1, r1. split; [reflexivity|]. unfold Search in E. unfold fitting, rescored.
  assert (EX : forall (f g : M -> bool) (a b : with_scope M -> with_scope M) l seen, (forall m, f m = g m) -> (forall x, a x = b x) -> reduce f a seen l = reduce g b seen l).
  { intros f g a b. induction l as [|x l IH]; intros seen F G; [reflexivity|]. cbn [reduce]. rewrite F, G, !IH; auto. }
  destruct keyword as [|k ks] eqn:EK.
  - injection E as _ <-. split; [reflexivity|]. apply EX; intros; [rewrite andb_true_r; reflexivity|reflexivity].
  - rewrite <- EK in *. injection E as _ <-. cbn [ih_relations ih_members]. split; [reflexivity|]. unfold kept. generalize (@nil gostr) as seen.
    induction (ih_members r1) as [|x l IH]; intros seen; [reflexivity|]. cbn [List.filter reduce]. unfold matches at 1. destruct (0 <? score keyword (mb_name (ws_member x)))%Z.
    + cbn [map reduce ws_member]. rewrite !IH. rewrite andb_true_r. reflexivity.
    + rewrite andb_false_r. rewrite !IH. destruct (set_mem _ _); reflexivity.
Qed.
End SearchEnds.

(** ** The first type *)
Section First.
Context {M : Type} {MM : Member M}.
Lemma alloc_first : forall (q : query M) name, unasked q name -> first_search (snd (alloc q)) name (Some (length (q_maps q))).
Proof.
  intros q name U. split; [exact U|]. cbn [alloc snd with_maps q_maps]. rewrite app_length. cbn [length]. split; [lia|].
  rewrite map_at_alloc. unfold map_at. apply nth_overflow. lia.
Qed.
Lemma of_type_class : forall gc gi gt (q : query M) c q' ms, of_type gc gi gt q [c] [] [] = Some (q', ms) ->
  exists q1 r, gc (snd (alloc q)) c (Some (length (q_maps q))) = Some (q1, r) /\ ih_members ms = ih_members r /\ ih_relations ms = ih_relations r.
Proof.
  intros gc gi gt q c q' ms E. unfold of_type in E. cbn [alloc each ih_searched] in E. cbn [alloc snd].
  destruct (gc _ _ _) as [(q1, r)|]; [|discriminate E]. cbn [Merge ih_members ih_relations ih_searched] in E. injection E as _ <-. exists q1, r. auto.
Qed.
Lemma of_type_interface : forall gc gi gt (q : query M) i q' ms, of_type gc gi gt q [] [i] [] = Some (q', ms) ->
  exists q1 r, gi (snd (alloc q)) i (Some (length (q_maps q))) = Some (q1, r) /\ ih_members ms = ih_members r /\ ih_relations ms = ih_relations r.
Proof.
  intros gc gi gt q c q' ms E. unfold of_type in E. cbn [alloc each ih_searched] in E. cbn [alloc snd].
  destruct (gi _ _ _) as [(q1, r)|]; [|discriminate E]. cbn [Merge ih_members ih_relations ih_searched] in E. injection E as _ <-. exists q1, r. auto.
Qed.
End First.

Section FirstType.
Context {T : Text} {M : Type} {MM : Member M}.
Variables (db : database M) (interfaces trts : bool).
Variables (gc : query M -> class -> option nat -> option (query M * inherited M)) (gi : query M -> interface -> option nat -> option (query M * inherited M))
          (gt : query M -> trait -> option nat -> option (query M * inherited M)).
Variables (ok : relation_map -> M -> bool) (adjust : with_scope M -> with_scope M).
Hypothesis ADJ : forall x, ws_member (adjust x) = ws_member x /\ ws_scope (adjust x) = ws_scope x.
Definition chosen (ms : inherited M) : list (with_scope M) := reduce (ok (ih_relations ms)) adjust [] (ih_members ms).

Lemma chosen_keys : forall ms, (forall x, In x (ih_members ms) -> ~ In COLON (mb_name (ws_member x))) -> NoDup (map merge_key (chosen ms)).
Proof.
  intros ms NC. apply keys_nodup.
  - intros x X. unfold chosen in X. apply reduce_first in X as (l1 & y & l2 & E & -> & _). destruct (ADJ y) as (-> & _). apply NC. rewrite E. apply in_or_app. right. left. reflexivity.
  - apply reduce_nodup. intros x. destruct (ADJ x) as (-> & _). reflexivity.
Qed.
Lemma first_of_types : forall q t ts q' l, of_types gc gi gt db interfaces trts chosen q [] (t :: ts) = Some (q', l) ->
  (forall q1 ms, of_type gc gi gt q (db_classes db (ts_fqn t)) (if interfaces then db_interfaces db (ts_fqn t) else []) (if trts then db_traits db (ts_fqn t) else []) = Some (q1, ms) ->
     forall x, In x (ih_members ms) -> ~ In COLON (mb_name (ws_member x))) ->
  exists q1 ms rest, of_type gc gi gt q (db_classes db (ts_fqn t)) (if interfaces then db_interfaces db (ts_fqn t) else []) (if trts then db_traits db (ts_fqn t) else []) = Some (q1, ms)
    /\ l = chosen ms ++ rest /\ (ts = [] -> rest = []).
Proof.
  intros q t ts q' l E NC. cbn [of_types] in E. destruct (of_type _ _ _ _ _ _ _) as [(q1, ms)|] eqn:E1; [|discriminate E].
  assert (K := chosen_keys ms (NC q1 ms eq_refl)). unfold MergeWithScope in E. cbn [app] in E. rewrite merge_from_id in E; [|exact K|intros x _ []].
  exists q1, ms. destruct ts as [|t' ts'].
  - cbn [of_types] in E. injection E as _ <-. exists []. rewrite app_nil_r. auto.
  - apply of_types_keeps in E as (rest & ->); [|exact K]. exists rest. split; [reflexivity|]. split; [reflexivity|discriminate].
Qed.
End FirstType.
Lemma one_element : forall {A} (l : list A) x, NoDup l -> In x l -> (forall y, In y l -> y = x) -> l = [x].
Proof.
  intros A [|a l] x N I H; [destruct I|]. assert (a = x) by (apply H; left; reflexivity). subst a. destruct l as [|b l]; [reflexivity|].
  exfalso. assert (b = x) by (apply H; right; left; reflexivity). subst b. inversion N as [|? ? N1 _]; subst. apply N1. left. reflexivity.
Qed.
Lemma no_element : forall {A} (l : list A), (forall y, ~ In y l) -> l = [].
Proof. intros A [|a l] H; [reflexivity|]. destruct (H a (or_introl eq_refl)). Qed.
