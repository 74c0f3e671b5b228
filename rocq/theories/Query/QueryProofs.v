(** Proofs about collecting members: termination. *)
From Coq Require Import String.
From Coq Require Import List Bool Arith ZArith Lia.
From Coq.Strings Require Import Byte.
From Verif Require Import Base.Bytes Base.BytesProofs Symbols.Symbols Symbols.KeysModel Query.QueryModel Query.QuerySpec.
Import ListNotations.
Open Scope list_scope.

Lemma set_mem_In : forall x s, set_mem x s = true <-> In x s.
Proof.
  intros x s. unfold set_mem. rewrite existsb_exists. split.
  - intros (y & I & E). apply str_eqb_eq in E. now subst.
  - intros I. exists x. split; [exact I|apply str_eqb_refl].
Qed.
Lemma set_mem_out : forall x s, set_mem x s = false <-> ~ In x s.
Proof. intros x s. rewrite <- set_mem_In. destruct (set_mem x s); split; congruence. Qed.
Lemma set_add_In : forall x y s, In y (set_add x s) <-> y = x \/ In y s.
Proof.
  intros x y s. unfold set_add. destruct (set_mem x s) eqn:E.
  - apply set_mem_In in E. split; [auto|intros [->|I]; auto].
  - cbn. intuition congruence.
Qed.
Lemma fold_add_In : forall l s y, In y (fold_right set_add s l) <-> In y l \/ In y s.
Proof. induction l as [|x l IH]; intros s y; cbn; [tauto|]. rewrite set_add_In, IH. intuition congruence. Qed.

Lemma map_update_length : forall maps a s, length (map_update maps a s) = length maps.
Proof. induction maps as [|m ms IH]; intros [|a] s; cbn; auto. Qed.
Lemma map_at_update : forall maps a s, (a < length maps)%nat -> map_at (map_update maps a s) a = s.
Proof. unfold map_at. induction maps as [|m ms IH]; intros [|a] s H; cbn in *; try lia; [reflexivity|]. apply IH. lia. Qed.
Lemma map_at_other : forall maps a b s, a <> b -> map_at (map_update maps a s) b = map_at maps b.
Proof. unfold map_at. induction maps as [|m ms IH]; intros [|a] [|b] s H; cbn; try reflexivity; try congruence. apply IH. congruence. Qed.

(** maps only grow *)
Definition grows (m m' : list (list gostr)) : Prop :=
  (length m <= length m')%nat /\ forall b, incl (map_at m b) (map_at m' b).
Lemma grows_refl : forall m, grows m m.
Proof. split; [lia|intros b x; auto]. Qed.
Lemma grows_trans : forall a b c, grows a b -> grows b c -> grows a c.
Proof. intros a b c [L1 I1] [L2 I2]. split; [lia|]. intros x y H. apply I2, I1, H. Qed.
Lemma grows_update : forall m a s, incl (map_at m a) s -> grows m (map_update m a s).
Proof.
  intros m a s I. split; [rewrite map_update_length; lia|]. intros b x H.
  destruct (Nat.eq_dec a b) as [->|N]; [|rewrite map_at_other by exact N; exact H].
  destruct (le_lt_dec (length m) b) as [L|L].
  - unfold map_at in H. rewrite nth_overflow in H by exact L. destruct H.
  - rewrite map_at_update by exact L. auto.
Qed.
Lemma grows_insert : forall m a x, grows m (map_insert m a x).
Proof. intros. apply grows_update. intros y H. apply set_add_In. auto. Qed.
Lemma grows_union : forall m a b, grows m (map_union m a b).
Proof. intros. apply grows_update. intros y H. apply fold_add_In. auto. Qed.
Lemma grows_alloc : forall m, grows m (m ++ [[]]).
Proof.
  intros m. split; [rewrite app_length; cbn; lia|]. intros b x H. unfold map_at in *. destruct (le_lt_dec (length m) b) as [L|L].
  - rewrite nth_overflow in H by exact L. destruct H.
  - rewrite app_nth1 by exact L. exact H.
Qed.
Lemma insert_in : forall m a x, (a < length m)%nat -> In x (map_at (map_insert m a x) a).
Proof. intros. unfold map_insert. rewrite map_at_update by assumption. apply set_add_In. auto. Qed.

(** names not searched yet *)
Definition unsearched (names s : list gostr) : nat := length (List.filter (fun n => negb (set_mem n s)) names).
Lemma unsearched_le : forall names s s', incl s s' -> (unsearched names s' <= unsearched names s)%nat.
Proof.
  intros names s s' I. unfold unsearched. induction names as [|n names IH]; [auto|]. cbn.
  destruct (set_mem n s) eqn:E; cbn.
  - apply set_mem_In in E. apply I in E. apply set_mem_In in E. rewrite E. exact IH.
  - destruct (set_mem n s'); cbn; lia.
Qed.
Lemma unsearched_lt : forall names s s' x, incl s s' -> In x names -> ~ In x s -> In x s' -> (unsearched names s' < unsearched names s)%nat.
Proof.
  intros names s s' x I J N Y. induction names as [|n names IH]; [destruct J|].
  assert (L := unsearched_le names s s' I). unfold unsearched in *. cbn. destruct J as [->|J].
  - apply set_mem_out in N. apply set_mem_In in Y. rewrite N, Y. cbn. lia.
  - specialize (IH J). destruct (set_mem n s) eqn:E; cbn.
    + apply set_mem_In in E. apply I in E. apply set_mem_In in E. rewrite E. exact IH.
    + destruct (set_mem n s'); cbn; lia.
Qed.

Section Termination.
Context {M : Type}.
Variable relate : bool.
Variable db : database M.

Lemma interface_loop_terminates : forall is name a, (forall n i, In i (db_interfaces db n) -> In i is) ->
  forall k queue maps acc rel, (a < length maps)%nat -> incl queue is ->
  (unsearched (map (fun i => ts_fqn (i_name i)) is) (map_at maps a) <= k)%nat ->
  exists n maps' r, grows maps maps' /\ forall fuel, (n <= fuel)%nat ->
    interface_loop relate db fuel name a queue maps acc rel = Some (maps', fst r, snd r).
Proof.
  intros is name a ALL. induction k as [k IHk] using lt_wf_ind. induction queue as [|intf rest IHq]; intros maps acc rel A Q U.
  - exists 1%nat, maps, (acc, rel). split; [apply grows_refl|]. intros [|fuel] F; [lia|]. reflexivity.
  - destruct (set_mem (ts_fqn (i_name intf)) (map_at maps a)) eqn:E.
    + destruct (IHq maps acc rel A) as (n & maps' & r & G & H); [intros x X; apply Q; right; exact X|exact U|].
      exists (S n), maps', r. split; [exact G|]. intros [|fuel] F; [lia|]. cbn [interface_loop]. rewrite E. apply H. lia.
    + set (scope := ts_fqn (i_name intf)) in *. set (maps1 := map_insert maps a scope).
      assert (A1 : (a < length maps1)%nat) by (unfold maps1, map_insert; rewrite map_update_length; exact A).
      assert (LT : (unsearched (map (fun i => ts_fqn (i_name i)) is) (map_at maps1 a) < k)%nat).
      { eapply Nat.lt_le_trans; [|exact U]. apply unsearched_lt with (x := scope).
        - apply grows_insert.
        - apply (in_map (fun i => ts_fqn (i_name i))). apply Q. left. reflexivity.
        - apply set_mem_out. exact E.
        - apply insert_in. exact A. }
      edestruct (IHk _ LT) as (n & maps' & r & G & H); [exact A1| |apply le_n|].
      2:{ exists (S n), maps', r. split; [eapply grows_trans; [apply grows_insert|exact G]|]. intros [|fuel] F; [lia|]. cbn [interface_loop].
          fold scope. rewrite E. fold maps1. apply H. lia. }
      intros x X. apply in_app_or in X as [X|X]; [apply Q; right; exact X|]. apply filter_In in X as [X _].
      apply in_flat_map in X as (e & _ & X). destruct (ts_IsEmpty e); [destruct X|]. eapply ALL. exact X.
Qed.

Lemma interface_terminates : finite_db db -> forall q intf name searched,
  match searched with Some a => (a < length (q_maps q))%nat | None => True end ->
  exists n r, grows (q_maps q) (q_maps (fst r)) /\ forall fuel, (n <= fuel)%nat -> GetInterfaceMembers relate db fuel q intf name searched = Some r.
Proof.
  intros (cs & is & FC & FI) q intf name searched V. unfold GetInterfaceMembers.
  destruct (or_alloc q searched) as [a q1] eqn:OA.
  assert (H : (a < length (q_maps q1))%nat /\ grows (q_maps q) (q_maps q1)).
  { destruct searched as [b|]; cbn in OA; injection OA as <- <-; [split; [exact V|apply grows_refl]|]. cbn. split; [rewrite app_length; cbn; lia|apply grows_alloc]. }
  destruct H as [A G]. destruct (cache_get _ _ _) as [i|]; [exists 0%nat, (q1, i); split; [exact G|intros; reflexivity]|].
  destruct (interface_loop_terminates (intf :: is) name a) with (k := unsearched (map (fun i => ts_fqn (i_name i)) (intf :: is)) (map_at (q_maps q1) a))
    (queue := [intf]) (maps := q_maps q1) (acc := @nil (with_scope M)) (rel := @nil (gostr * gostr)) as (n & maps' & r & G' & H).
  - intros m i I. right. eapply FI. exact I.
  - exact A.
  - intros x [<-|[]]. left. reflexivity.
  - apply le_n.
  - eexists n, _. split; [|intros fuel F; rewrite (H fuel F); reflexivity]. cbn [fst q_maps]. eapply grows_trans; eassumption.
Qed.

Lemma merge_interfaces_terminates : finite_db db -> forall is name q m, (ih_searched m < length (q_maps q))%nat ->
  exists n r, grows (q_maps q) (q_maps (fst r)) /\ ih_searched (snd r) = ih_searched m
    /\ forall fuel, (n <= fuel)%nat -> merge_interfaces relate db fuel q m is name = Some r.
Proof.
  intros FD. induction is as [|i is IH]; intros name q m A.
  - exists 0%nat, (q, m). split; [apply grows_refl|]. split; [reflexivity|]. intros. reflexivity.
  - destruct (interface_terminates FD q i name (Some (ih_searched m)) A) as (n1 & [q1 other] & G1 & H1). cbn [fst] in G1.
    destruct (Merge q1 m other) as [q2 m2] eqn:ME. unfold Merge in ME. injection ME as <- <-.
    edestruct (IH name (with_maps q1 (map_union (q_maps q1) (ih_searched m) (ih_searched other)))
      (Inherited (ih_members m ++ ih_members other) (ih_relations m ++ ih_relations other) (ih_searched m))) as (n2 & r & G2 & S2 & H2);
      [|exists (Nat.max n1 n2), r; split; [|split; [exact S2|]]].
    + cbn. unfold map_union. rewrite map_update_length. destruct G1. lia.
    + eapply grows_trans; [exact G1|]. eapply grows_trans; [|exact G2]. cbn. apply grows_union.
    + intros fuel F. cbn [merge_interfaces]. rewrite H1 by lia. cbn [Merge]. apply H2. lia.
Qed.

Lemma merge_traits_grows : forall ts name q m, (ih_searched m < length (q_maps q))%nat ->
  let r := fold_left (fun qm t => let '(q, m) := qm in let '(q, other) := GetTraitMembers db q t name in Merge q m other) ts (q, m) in
  grows (q_maps q) (q_maps (fst r)) /\ ih_searched (snd r) = ih_searched m.
Proof.
  induction ts as [|t ts IH]; intros name q m A; [split; [apply grows_refl|reflexivity]|]. cbn [fold_left].
  destruct (GetTraitMembers db q t name) as [q1 other] eqn:GT.
  assert (G1 : grows (q_maps q) (q_maps q1)).
  { unfold GetTraitMembers in GT. destruct (cache_get _ _ _); [injection GT as <- <-; apply grows_refl|]. cbn in GT. injection GT as <- <-. cbn. apply grows_alloc. }
  cbn [Merge]. unfold Merge. edestruct (IH name (with_maps q1 (map_union (q_maps q1) (ih_searched m) (ih_searched other)))
    (Inherited (ih_members m ++ ih_members other) (ih_relations m ++ ih_relations other) (ih_searched m))) as [G2 S2]; [|split; [|exact S2]].
  - cbn. unfold map_union. rewrite map_update_length. destruct G1. lia.
  - eapply grows_trans; [exact G1|]. eapply grows_trans; [|exact G2]. cbn. apply grows_union.
Qed.
End Termination.

Section Classes.
Context {M : Type}.
Variables relate traits : bool.
Variable db : database M.

(** the part of a round of the class loop after the check *)
Definition class_queries (q : query M) (m : inherited M) (name : gostr) (marks : bool) (class : class) : query M * inherited M :=
  let scope := ts_fqn (c_name class) in
  let q := if marks then with_maps q (map_insert (q_maps q) (ih_searched m) scope) else q in
  let m := Inherited (ih_members m ++ with_scope_from (ScClass class) (db_members db scope name)) (ih_relations m) (ih_searched m) in
  if traits then merge_traits db q m (c_use class) name else (q, m).

Lemma class_queries_grows : forall q m name marks class, (ih_searched m < length (q_maps q))%nat ->
  grows (q_maps q) (q_maps (fst (class_queries q m name marks class))) /\ ih_searched (snd (class_queries q m name marks class)) = ih_searched m
  /\ (marks = true -> In (ts_fqn (c_name class)) (map_at (q_maps (fst (class_queries q m name marks class))) (ih_searched m))).
Proof.
  intros q m name marks class A. unfold class_queries.
  set (q1 := if marks then with_maps q (map_insert (q_maps q) (ih_searched m) (ts_fqn (c_name class))) else q).
  set (m1 := Inherited (ih_members m ++ _) (ih_relations m) (ih_searched m)).
  assert (G1 : grows (q_maps q) (q_maps q1)) by (unfold q1; destruct marks; [apply grows_insert|apply grows_refl]).
  assert (I1 : marks = true -> In (ts_fqn (c_name class)) (map_at (q_maps q1) (ih_searched m))).
  { unfold q1. intros ->. cbn. apply insert_in. exact A. }
  destruct traits; [|cbn; auto].
  edestruct (merge_traits_grows db) with (m := m1) (q := q1) (name := name) as [G2 S2]; [cbn; destruct G1; lia|].
  unfold merge_traits. split; [eapply grows_trans; [exact G1|exact G2]|]. split; [exact S2|].
  intros E. apply G2. apply I1. exact E.
Qed.

(** one round *)
Definition class_push (class : class) (q : query M) (a : nat) : bool :=
  negb (ts_IsEmpty (c_extends class)) && negb (set_mem (ts_fqn (c_extends class)) (map_at (q_maps q) a)).
Definition class_implements (class : class) : list interface :=
  flat_map (fun e => if ts_IsEmpty e then [] else db_interfaces db (ts_fqn e)) (c_interfaces class).
Definition class_relate (class : class) (push : bool) (m : inherited M) : inherited M :=
  Inherited (ih_members m)
    (ih_relations m ++ (if relate then (if push then [(ts_fqn (c_name class), ts_fqn (c_extends class))] else [])
                                       ++ map (fun i => (ts_fqn (c_name class), ts_fqn (i_name i))) (class_implements class) else []))
    (ih_searched m).
Lemma class_loop_step : forall marks ifuel fuel q name class rest m mi,
  class_loop relate marks traits db ifuel (S fuel) q name (class :: rest) m mi =
  if marks && set_mem (ts_fqn (c_name class)) (map_at (q_maps q) (ih_searched m))
  then class_loop relate marks traits db ifuel fuel q name rest m mi
  else
    let q1 := fst (class_queries q m name marks class) in
    let m1 := snd (class_queries q m name marks class) in
    let push := class_push class q1 (ih_searched m1) in
    match merge_interfaces relate db ifuel q1 mi (class_implements class) name with
    | None => None
    | Some (q2, mi') => class_loop relate marks traits db ifuel fuel q2 name
        (if push then rest ++ db_classes db (ts_fqn (c_extends class)) else rest) (class_relate class push m1) mi'
    end.
Proof.
  intros. cbn [class_loop]. destruct (marks && _); [reflexivity|]. unfold class_queries.
  destruct traits; [destruct (merge_traits _ _ _ _ _) as [q1 m1]|]; reflexivity.
Qed.

Lemma class_loop_terminates : finite_db db -> forall cs name, (forall n c, In c (db_classes db n) -> In c cs) ->
  forall k queue q m mi, (ih_searched m < length (q_maps q))%nat -> ih_searched mi = ih_searched m -> incl queue cs ->
  (unsearched (map (fun c => ts_fqn (c_name c)) cs) (map_at (q_maps q) (ih_searched m)) <= k)%nat ->
  exists n r, forall ifuel fuel, (n <= ifuel)%nat -> (n <= fuel)%nat ->
    class_loop relate true traits db ifuel fuel q name queue m mi = Some r.
Proof.
  intros FD cs name ALL. induction k as [k IHk] using lt_wf_ind. induction queue as [|class rest IHq]; intros q m mi A SM Q U.
  - exists 1%nat, (q, m, mi). intros ifuel [|fuel] F1 F2; [lia|]. reflexivity.
  - destruct (set_mem (ts_fqn (c_name class)) (map_at (q_maps q) (ih_searched m))) eqn:E.
    + destruct (IHq q m mi A SM) as (n & r & H); [intros x X; apply Q; right; exact X|exact U|].
      exists (S n), r. intros ifuel [|fuel] F1 F2; [lia|]. rewrite class_loop_step, E. apply H; lia.
    + destruct (class_queries_grows q m name true class A) as (G1 & S1 & I1).
      set (q1 := fst (class_queries q m name true class)) in *. set (m1 := snd (class_queries q m name true class)) in *.
      specialize (I1 eq_refl).
      destruct (merge_interfaces_terminates relate db FD (class_implements class) name q1 mi) as (n1 & [q2 mi2] & G2 & S2 & H2).
      { rewrite SM. destruct G1. lia. }
      cbn [fst snd] in *.
      set (push := class_push class q1 (ih_searched m1)).
      assert (LT : (unsearched (map (fun c => ts_fqn (c_name c)) cs) (map_at (q_maps q2) (ih_searched (class_relate class push m1))) < k)%nat).
      { eapply Nat.lt_le_trans; [|exact U]. cbn [ih_searched class_relate]. rewrite S1. apply unsearched_lt with (x := ts_fqn (c_name class)).
        - intros x X. apply G2, G1, X.
        - apply (in_map (fun c => ts_fqn (c_name c))). apply Q. left. reflexivity.
        - apply set_mem_out. exact E.
        - apply G2. exact I1. }
      edestruct (IHk _ LT) with (queue := if push then rest ++ db_classes db (ts_fqn (c_extends class)) else rest) (q := q2) (m := class_relate class push m1) (mi := mi2) as (n & r & H).
      * cbn [ih_searched class_relate]. rewrite S1. destruct G1, G2. lia.
      * cbn [ih_searched class_relate]. congruence.
      * assert (R : incl rest cs) by (intros x X; apply Q; right; exact X).
        destruct push; [|exact R]. apply incl_app; [exact R|]. intros x X. eapply ALL. exact X.
      * apply le_n.
      * exists (S (Nat.max n1 n)), r. intros ifuel [|fuel] F1 F2; [lia|]. rewrite class_loop_step, E. cbn [andb]. cbv zeta. fold q1 m1 push.
        rewrite H2 by lia. apply H; lia.
Qed.

(** without marks: weights bound the rounds *)
Lemma rank_loop_terminates : finite_db db -> forall (rank : class -> nat) cs name, (forall n c, In c (db_classes db n) -> In c cs) ->
  (forall c p, parent db c p -> (rank p < rank c)%nat) ->
  forall K, (forall c, In c cs -> (length (db_classes db (ts_fqn (c_extends c))) <= K)%nat) ->
  forall w queue q m mi, (fold_right (fun c s => S K ^ rank c + s) 0 queue <= w)%nat ->
  (ih_searched m < length (q_maps q))%nat -> ih_searched mi = ih_searched m -> incl queue cs ->
  exists n r, forall ifuel fuel, (n <= ifuel)%nat -> (n <= fuel)%nat ->
    class_loop relate false traits db ifuel fuel q name queue m mi = Some r.
Proof.
  intros FD rank cs name ALL RK K BK. induction w as [w IHw] using lt_wf_ind. intros [|class rest] q m mi W A SM Q.
  - exists 1%nat, (q, m, mi). intros ifuel [|fuel] F1 F2; [lia|]. reflexivity.
  - destruct (class_queries_grows q m name false class A) as (G1 & S1 & _).
    set (q1 := fst (class_queries q m name false class)) in *. set (m1 := snd (class_queries q m name false class)) in *.
    destruct (merge_interfaces_terminates relate db FD (class_implements class) name q1 mi) as (n1 & [q2 mi2] & G2 & S2 & H2).
    { rewrite SM. destruct G1. lia. }
    cbn [fst snd] in *. set (push := class_push class q1 (ih_searched m1)).
    set (queue := if push then rest ++ db_classes db (ts_fqn (c_extends class)) else rest).
    assert (SUM : forall l1 l2, fold_right (fun c s => S K ^ rank c + s)%nat 0%nat (l1 ++ l2) = (fold_right (fun c s => S K ^ rank c + s) 0 l1 + fold_right (fun c s => S K ^ rank c + s) 0 l2)%nat).
    { induction l1 as [|x l1 IH]; intros l2; cbn [app fold_right]; [reflexivity|]. rewrite IH. lia. }
    assert (LT : (fold_right (fun c s => S K ^ rank c + s) 0 queue < w)%nat).
    { eapply Nat.lt_le_trans; [|exact W]. cbn [fold_right]. assert (POS : (0 < S K ^ rank class)%nat) by (apply Nat.neq_0_lt_0, Nat.pow_nonzero; lia).
      unfold queue. destruct push eqn:EP; [|lia]. rewrite SUM.
      assert (PS : (fold_right (fun c s => S K ^ rank c + s) 0 (db_classes db (ts_fqn (c_extends class))) < S K ^ rank class)%nat); [|lia].
      unfold push, class_push in EP. apply andb_prop in EP as [NE _]. apply negb_true_iff in NE.
      assert (PR : forall p, In p (db_classes db (ts_fqn (c_extends class))) -> (rank p < rank class)%nat) by (intros p P; apply RK; split; assumption).
      specialize (BK class (Q class (or_introl eq_refl))). remember (db_classes db (ts_fqn (c_extends class))) as ps. clear Heqps.
      destruct (rank class) as [|r]; [destruct ps as [|p ps]; [cbn; lia|specialize (PR p (or_introl eq_refl)); lia]|].
      assert (B : (fold_right (fun c s => S K ^ rank c + s) 0 ps <= length ps * S K ^ r)%nat).
      { clear BK. induction ps as [|p ps IH]; [cbn; lia|]. cbn [fold_right length Nat.mul].
        assert (S K ^ rank p <= S K ^ r)%nat by (apply Nat.pow_le_mono_r; [lia|]; specialize (PR p (or_introl eq_refl)); lia).
        assert (fold_right (fun c s => S K ^ rank c + s) 0 ps <= length ps * S K ^ r)%nat by (apply IH; intros x X; apply PR; right; exact X). lia. }
      cbn [Nat.pow]. assert (P0 : (0 < S K ^ r)%nat) by (apply Nat.neq_0_lt_0, Nat.pow_nonzero; lia). nia. }
    edestruct (IHw _ LT queue) with (q := q2) (mi := mi2) (m := class_relate class push m1) as (n & r & H); [apply le_n| | | |].
    + cbn [ih_searched class_relate]. rewrite S1. destruct G1, G2. lia.
    + cbn [ih_searched class_relate]. congruence.
    + assert (R : incl rest cs) by (intros x X; apply Q; right; exact X).
      unfold queue. destruct push; [|exact R]. apply incl_app; [exact R|]. intros x X. eapply ALL. exact X.
    + exists (S (Nat.max n1 n)), r. intros ifuel [|fuel] F1 F2; [lia|]. rewrite class_loop_step. cbn [andb]. cbv zeta. fold q1 m1 push.
      rewrite H2 by lia. fold queue. apply H; lia.
Qed.

Definition valid_address (q : query M) (searched : option nat) : Prop :=
  match searched with Some a => (a < length (q_maps q))%nat | None => True end.

Lemma class_members_terminate : forall marks, finite_db db -> (marks = true \/ acyclic db) -> forall q class name searched, valid_address q searched ->
  exists n r, forall fuel, (n <= fuel)%nat -> GetClassMembers relate marks traits db fuel q class name searched = Some r.
Proof.
  intros marks FD MA q class name searched V. unfold GetClassMembers. destruct (or_alloc q searched) as [a q1] eqn:OA.
  assert (A : (a < length (q_maps q1))%nat).
  { destruct searched as [b|]; cbn in OA; injection OA as <- <-; [exact V|]. cbn. rewrite app_length. cbn. lia. }
  destruct (cache_get _ _ _) as [i|]; [exists 0%nat, (q1, i); intros; reflexivity|].
  destruct FD as (cs & is & FC & FI). assert (FD : finite_db db) by (exists cs, is; auto).
  assert (T : exists n r, forall ifuel fuel, (n <= ifuel)%nat -> (n <= fuel)%nat ->
     class_loop relate marks traits db ifuel fuel q1 name [class] (Inherited [] [] a) (Inherited [] [] a) = Some r).
  { destruct MA as [-> | (rank & RK)].
    - eapply class_loop_terminates with (cs := class :: cs).
      + exact FD.
      + intros m c I. right. eapply FC. exact I.
      + exact A.
      + reflexivity.
      + intros x [<-|[]]. left. reflexivity.
      + apply le_n.
    - destruct marks.
      + eapply class_loop_terminates with (cs := class :: cs); [exact FD|intros m c I; right; eapply FC; exact I|exact A|reflexivity| |apply le_n]. intros x [<-|[]]. left. reflexivity.
      + set (K := fold_right (fun c s => length (db_classes db (ts_fqn (c_extends c))) + s)%nat 0%nat (class :: cs)).
        eapply rank_loop_terminates with (cs := class :: cs) (K := K); [exact FD|intros m c I; right; eapply FC; exact I|exact RK| |apply le_n|exact A|reflexivity|].
        * unfold K. clear. induction (class :: cs) as [|x l IH]; intros c I; [destruct I|]. cbn [fold_right]. destruct I as [->|I]; [lia|]. specialize (IH c I). lia.
        * intros x [<-|[]]. left. reflexivity. }
  destruct T as (n & [[q2 m] mi] & H). eexists n, _. intros fuel F. rewrite (H fuel fuel F F). cbn [Merge]. reflexivity.
Qed.
End Classes.
