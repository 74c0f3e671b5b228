(** Proofs about collecting members: what is collected, and in which order. *)
From Coq Require Import String.
From Coq Require Import List Bool Arith ZArith Lia.
From Coq.Strings Require Import Byte.
From Verif Require Import Base.Bytes Base.BytesProofs Symbols.Symbols Symbols.KeysModel Query.QueryModel Query.QuerySpec Query.QueryProofs.
Import ListNotations.
Open Scope list_scope.

Lemma NoDup_app_single : forall {A} (l : list A) x, NoDup l -> ~ In x l -> NoDup (l ++ [x]).
Proof.
  induction l as [|y l IH]; intros x N I; cbn; [constructor; [intros []|constructor]|]. inversion N; subst. constructor.
  - intros J. apply in_app_or in J as [J|[->|[]]]; [auto|]. apply I. left. reflexivity.
  - apply IH; [assumption|]. intros J. apply I. right. exact J.
Qed.

(** ** The first search for a name with a query *)
Section First.
Context {M : Type}.
Definition first_search (q : query M) (name : gostr) (s : option nat) : Prop :=
  unasked q name /\ match s with None => True | Some a => (a < length (q_maps q))%nat /\ map_at (q_maps q) a = [] end.
Lemma first_new : forall name, first_search NewQuery name None.
Proof. intros name. split; [|exact I]. split; [|split]; intros f i []. Qed.
Lemma map_at_alloc : forall maps b, map_at (maps ++ [[]]) b = map_at maps b.
Proof.
  intros maps b. unfold map_at. destruct (le_lt_dec (length maps) b) as [L|L]; [|apply app_nth1; exact L].
  rewrite app_nth2 by exact L. rewrite (nth_overflow maps) by exact L. destruct (b - length maps)%nat as [|[|k]]; reflexivity.
Qed.
Lemma first_or_alloc : forall q name s, first_search q name s -> exists a q1, or_alloc q s = (a, q1) /\ (a < length (q_maps q1))%nat /\ map_at (q_maps q1) a = []
  /\ (forall f i, ~ In (f, name, i) (q_class_cache q1)) /\ (forall f i, ~ In (f, name, i) (q_interface_cache q1)) /\ (forall f i, ~ In (f, name, i) (q_trait_cache q1)).
Proof.
  intros q name [a|] (U & S); cbn [or_alloc].
  - exists a, q. destruct S. auto.
  - eexists. eexists. split; [reflexivity|]. cbn [q_maps with_maps q_class_cache q_interface_cache q_trait_cache]. split; [rewrite app_length; cbn; lia|]. split; [rewrite map_at_alloc; unfold map_at; apply nth_overflow; lia|exact U].
Qed.
Lemma cache_get_unasked : forall (c : cache) name f, (forall f i, ~ In (f, name, i) c) -> cache_get (M := M) c f name = None.
Proof.
  induction c as [|[[f' n'] i'] c IH]; intros name f H; cbn [cache_get]; [reflexivity|].
  destruct (str_eqb f' f && str_eqb n' name) eqn:E; [|apply IH; intros g i J; exact (H g i (or_intror J))].
  apply andb_prop in E as [_ E]. apply str_eqb_eq in E. subst n'. destruct (H f' i' (or_introl eq_refl)).
Qed.
End First.

Section Members.
Context {M : Type}.
Variables relate marks traits : bool.
Variable db : database M.
Variable name : gostr.
Hypothesis ONCE : declared_once db.

Definition is_interface (i : interface) : Prop := exists n, In i (db_interfaces db n).
Definition is_class (c : class) : Prop := exists n, In c (db_classes db n).
Lemma same_interface : forall i j, is_interface i -> is_interface j -> ts_fqn (i_name i) = ts_fqn (i_name j) -> i = j.
Proof.
  intros i j (n & I) (m & J) E. assert (n = m) by (rewrite <- (one_interface _ ONCE _ _ I), <- (one_interface _ ONCE _ _ J); exact E). subst m.
  exact (one_interface' _ ONCE _ _ _ I J).
Qed.
Lemma super_is_interface : forall i j, super db i j -> is_interface j.
Proof. intros i j (e & _ & _ & J). eexists. exact J. Qed.
Lemma implements_is_interface : forall c j, implements db c j -> is_interface j.
Proof. intros i j (e & _ & _ & J). eexists. exact J. Qed.
Lemma super_trans : forall i j k, super_interface db i j -> super_interface db j k -> super_interface db i k.
Proof. intros i j k H K. induction K; [exact H|]. eapply super_step; eauto. Qed.

Definition found_in (sc : scope_symbol) (scope : gostr) (l : list (with_scope M)) : Prop :=
  forall m, In m (db_members db scope name) -> In (WithScope m sc 0%Z) l.
Lemma found_app_l : forall sc scope l l', found_in sc scope l -> found_in sc scope (l ++ l').
Proof. intros sc scope l l' H m I. apply in_or_app. left. auto. Qed.
Lemma with_scope_In : forall x sc ms, In x (with_scope_from (M:=M) sc ms) <-> exists m, In m ms /\ x = WithScope m sc 0%Z.
Proof. intros x sc ms. unfold with_scope_from. rewrite in_map_iff. split; intros (m & A & B); exists m; auto. Qed.

(** interfaces marked in [s] have their members in [l], and the interfaces they extend are marked or queued *)
Definition closed_but (s : list gostr) (queue : list interface) (l : list (with_scope M)) : Prop :=
  forall j, is_interface j -> In (ts_fqn (i_name j)) s ->
    found_in (ScInterface j) (ts_fqn (i_name j)) l /\ forall k, super db j k -> In (ts_fqn (i_name k)) s \/ In k queue.

Definition from_interfaces (P : interface -> Prop) (l : list (with_scope M)) : Prop :=
  forall x, In x l -> exists j m, P j /\ In m (db_members db (ts_fqn (i_name j)) name) /\ x = WithScope m (ScInterface j) 0%Z.

Lemma interface_loop_members : forall a (P : interface -> Prop) base, (forall j k, P j -> super db j k -> P k) ->
  forall fuel queue maps acc rel maps' acc' rel', (a < length maps)%nat ->
  interface_loop relate db fuel name a queue maps acc rel = Some (maps', acc', rel') ->
  Forall (fun i => is_interface i /\ P i) queue -> from_interfaces P acc -> closed_but (map_at maps a) queue (base ++ acc) ->
  closed_but (map_at maps' a) [] (base ++ acc') /\ from_interfaces P acc' /\ incl acc acc' /\ grows maps maps'
  /\ length maps' = length maps
  /\ (forall i, In i queue -> In (ts_fqn (i_name i)) (map_at maps' a))
  /\ (forall b, b <> a -> map_at maps' b = map_at maps b)
  /\ (forall x, In x (map_at maps' a) -> In x (map_at maps a) \/ exists i, is_interface i /\ ts_fqn (i_name i) = x).
Proof.
  intros a P base PS. induction fuel as [|fuel IH]; intros queue maps acc rel maps' acc' rel' A E FQ FA CL; [discriminate E|].
  cbn [interface_loop] in E. destruct queue as [|intf rest].
  - injection E as <- <- <-. split; [exact CL|]. split; [exact FA|]. split; [apply incl_refl|]. split; [apply grows_refl|].
    split; [reflexivity|]. split; [intros i []|]. split; auto.
  - inversion FQ as [|? ? [ID IP] FR]; subst. destruct (set_mem (ts_fqn (i_name intf)) (map_at maps a)) eqn:SM.
    + apply set_mem_In in SM. edestruct IH as (C1 & C2 & C3 & C4 & C5 & C6 & C7 & C8); [exact A|exact E|exact FR|exact FA| |].
      * intros j J S. destruct (CL j J S) as [F K]. split; [exact F|]. intros k KS. destruct (K k KS) as [H|[<-|H]]; auto.
      * split; [exact C1|]. split; [exact C2|]. split; [exact C3|]. split; [exact C4|]. split; [exact C5|].
        split; [|split; [exact C7|exact C8]]. intros i [<-|I]; [apply C4; exact SM|auto].
    + set (scope := ts_fqn (i_name intf)) in *. set (maps1 := map_insert maps a scope) in *.
      set (extends := flat_map (fun e => if ts_IsEmpty e then [] else db_interfaces db (ts_fqn e)) (i_extends intf)) in *.
      assert (EX : forall k, In k extends <-> super db intf k).
      { intros k. unfold extends. rewrite in_flat_map. split.
        - intros (e & I & K). destruct (ts_IsEmpty e) eqn:EE; [destruct K|]. exists e. auto.
        - intros (e & I & EE & K). exists e. split; [exact I|]. rewrite EE. exact K. }
      assert (A1 : (a < length maps1)%nat) by (unfold maps1, map_insert; rewrite map_update_length; exact A).
      assert (IN1 : forall x, In x (map_at maps1 a) <-> x = scope \/ In x (map_at maps a)).
      { intros x. unfold maps1, map_insert. rewrite map_at_update by exact A. apply set_add_In. }
      edestruct IH as (C1 & C2 & C3 & C4 & C5 & C6 & C7 & C8); [exact A1|exact E| | | |].
      * apply Forall_app. split; [exact FR|]. apply Forall_forall. intros k K. apply filter_In in K as [K _]. apply EX in K.
        split; [eapply super_is_interface; exact K|eapply PS; eauto].
      * intros x X. apply in_app_or in X as [X|X]; [auto|]. apply with_scope_In in X as (m & Im & ->). exists intf, m. auto.
      * intros j J S. apply IN1 in S. destruct (str_eqb_spec (ts_fqn (i_name j)) scope) as [EQ|NE].
        -- assert (j = intf) by (apply same_interface; auto). subst j. split.
           ++ intros m Im. apply in_or_app. right. apply in_or_app. right. apply with_scope_In. eauto.
           ++ intros k K. destruct (set_mem (ts_fqn (i_name k)) (map_at maps1 a)) eqn:SK; [left; apply set_mem_In; exact SK|].
              right. apply in_or_app. right. apply filter_In. split; [apply EX; exact K|]. rewrite SK. reflexivity.
        -- destruct S as [S|S]; [congruence|]. destruct (CL j J S) as [F K]. split.
           ++ rewrite app_assoc. apply found_app_l. exact F.
           ++ intros k KS. destruct (K k KS) as [H|[<-|H]].
              ** left. apply IN1. auto.
              ** left. apply IN1. auto.
              ** right. apply in_or_app. auto.
      * split; [exact C1|]. split; [exact C2|]. split; [intros x X; apply C3; apply in_or_app; auto|].
        split; [eapply grows_trans; [apply grows_insert|exact C4]|].
        split; [rewrite C5; unfold maps1, map_insert; apply map_update_length|].
        split.
        -- intros i [<-|I]; [apply C4; apply IN1; auto|apply C6; apply in_or_app; auto].
        -- split.
           ++ intros b N. rewrite (C7 b N). unfold maps1, map_insert. apply map_at_other. congruence.
           ++ intros x X. apply C8 in X as [X|X]; [|auto]. apply IN1 in X as [->|X]; [|auto]. right. exists intf. auto.
Qed.

(** ** The caches while a class is searched *)
Definition interface_cache_ok (a : nat) (s : list gostr) (l : list (with_scope M)) (c : list (gostr * gostr * inherited M)) : Prop :=
  forall f i, In (f, name, i) c -> ih_searched i = a /\ In f s /\ incl (ih_members i) l.
Definition trait_cache_ok (a : nat) (maps : list (list gostr)) (c : list (gostr * gostr * inherited M)) : Prop :=
  forall f i, In (f, name, i) c -> ih_searched i <> a /\ map_at maps (ih_searched i) = []
    /\ exists t, In t (db_traits db f) /\ ih_members i = with_scope_from (ScTrait t) (db_members db f name).
Lemma cache_get_In : forall (c : list (gostr * gostr * inherited M)) f n i, cache_get c f n = Some i -> In (f, n, i) c.
Proof.
  induction c as [|[[f' n'] i'] c IH]; intros f n i H; cbn in H; [discriminate H|].
  destruct (str_eqb f' f && str_eqb n' n) eqn:E; [|right; auto]. apply andb_prop in E as [E1 E2]. apply str_eqb_eq in E1, E2. left. congruence.
Qed.

Lemma union_self : forall maps a x, (a < length maps)%nat -> In x (map_at (map_union maps a a) a) <-> In x (map_at maps a).
Proof. intros. unfold map_union. rewrite map_at_update by assumption. rewrite fold_add_In. tauto. Qed.
Lemma map_update_same : forall maps a, map_update maps a (map_at maps a) = maps.
Proof. unfold map_at. induction maps as [|m ms IH]; intros [|a]; cbn; auto. f_equal. apply IH. Qed.
Lemma union_empty : forall maps a b, map_at maps b = [] -> map_union maps a b = maps.
Proof. intros maps a b E. unfold map_union. rewrite E. cbn. apply map_update_same. Qed.

(** ** A round over the interfaces of a class *)
Record searching (q : query M) (a : nat) (mi : inherited M) : Prop := {
  se_valid : (a < length (q_maps q))%nat;
  se_address : ih_searched mi = a;
  se_closed : closed_but (map_at (q_maps q) a) [] (ih_members mi);
  se_icache : interface_cache_ok a (map_at (q_maps q) a) (ih_members mi) (q_interface_cache q);
  se_tcache : trait_cache_ok a (q_maps q) (q_trait_cache q) }.

Lemma merge_interfaces_members : forall a (P : interface -> Prop), (forall j k, P j -> super db j k -> P k) ->
  forall ifuel is q mi q' mi', searching q a mi -> Forall (fun i => is_interface i /\ P i) is -> from_interfaces P (ih_members mi) ->
  merge_interfaces relate db ifuel q mi is name = Some (q', mi') ->
  searching q' a mi' /\ from_interfaces P (ih_members mi') /\ incl (ih_members mi) (ih_members mi')
  /\ grows (q_maps q) (q_maps q') /\ (forall i, In i is -> In (ts_fqn (i_name i)) (map_at (q_maps q') a))
  /\ (forall x, In x (map_at (q_maps q') a) -> In x (map_at (q_maps q) a) \/ exists i, is_interface i /\ ts_fqn (i_name i) = x)
  /\ q_class_cache q' = q_class_cache q.
Proof.
  intros a P PS ifuel. induction is as [|i is IH]; intros q mi q' mi' SE FI FM E.
  - cbn in E. injection E as <- <-. split; [exact SE|]. split; [exact FM|]. split; [apply incl_refl|]. split; [apply grows_refl|].
    split; [intros i []|]. split; auto.
  - inversion FI as [|? ? [ID IP] FI']; subst. cbn [merge_interfaces] in E. destruct SE as [SV SA SC SI ST].
    destruct (GetInterfaceMembers relate db ifuel q i name (Some (ih_searched mi))) as [[q1 other]|] eqn:GI; [|discriminate E].
    unfold Merge in E. rewrite SA in *.
    (* the state after merging the collection of i *)
    assert (ST1 : let q2 := with_maps q1 (map_union (q_maps q1) a (ih_searched other)) in
                  let mi2 := Inherited (ih_members mi ++ ih_members other) (ih_relations mi ++ ih_relations other) a in
      searching q2 a mi2 /\ from_interfaces P (ih_members mi2) /\ grows (q_maps q) (q_maps q2)
      /\ In (ts_fqn (i_name i)) (map_at (q_maps q2) a)
      /\ (forall x, In x (map_at (q_maps q2) a) -> In x (map_at (q_maps q) a) \/ exists i, is_interface i /\ ts_fqn (i_name i) = x)
      /\ q_class_cache q2 = q_class_cache q).
    { unfold GetInterfaceMembers in GI. cbn [or_alloc] in GI. destruct (cache_get (q_interface_cache q) (ts_fqn (i_name i)) name) as [ci|] eqn:CG.
      - injection GI as <- <-. apply cache_get_In in CG. destruct (SI _ _ CG) as (CA & CF & CM). rewrite CA. cbn zeta.
        assert (U := fun x => union_self (q_maps q) a x SV). cbn [q_maps with_maps q_class_cache ih_members].
        split; [|split; [|split; [|split; [|split]]]].
        + constructor; cbn [q_maps with_maps q_interface_cache q_trait_cache ih_members ih_searched].
          * unfold map_union. rewrite map_update_length. exact SV.
          * reflexivity.
          * intros j J S. apply U in S. destruct (SC j J S) as [F K]. split; [apply found_app_l; exact F|].
            intros k KS. destruct (K k KS) as [H|[]]. left. apply U. exact H.
          * intros f x X. destruct (SI f x X) as (X1 & X2 & X3). split; [exact X1|]. split; [apply U; exact X2|].
            apply incl_appl. exact X3.
          * intros f x X. destruct (ST f x X) as (X1 & X2 & X3). split; [exact X1|]. split; [|exact X3].
            unfold map_union. rewrite map_at_other by congruence. exact X2.
        + intros x X. apply in_app_or in X as [X|X]; [auto|]. apply FM. apply CM. exact X.
        + apply grows_union.
        + apply U. exact CF.
        + intros x X. left. apply U. exact X.
        + reflexivity.
      - destruct (interface_loop relate db ifuel name a [i] (q_maps q) [] []) as [[[maps' acc] rel]|] eqn:IL; [|discriminate GI].
        injection GI as <- <-. cbn zeta. cbn [q_maps with_maps q_class_cache ih_members ih_searched q_interface_cache q_trait_cache].
        destruct (interface_loop_members a P (ih_members mi) PS _ _ _ _ _ _ _ _ SV IL) as (C1 & C2 & C3 & C4 & C5 & C6 & C7 & C8).
        { constructor; [split; assumption|constructor]. }
        { intros x []. }
        { rewrite app_nil_r. intros j J S. destruct (SC j J S) as [F K]. split; [exact F|]. intros k KS. destruct (K k KS) as [H|[]]. auto. }
        assert (SV' : (a < length maps')%nat) by (rewrite C5; exact SV).
        assert (U := fun x => union_self maps' a x SV').
        split; [|split; [|split; [|split; [|split]]]].
        + constructor; cbn [q_maps with_maps q_interface_cache q_trait_cache ih_members ih_searched].
          * unfold map_union. rewrite map_update_length. exact SV'.
          * reflexivity.
          * intros j J S. apply U in S. destruct (C1 j J S) as [F K]. split; [exact F|].
            intros k KS. destruct (K k KS) as [H|[]]. left. apply U. exact H.
          * intros f x [X|X].
            -- injection X as <- <-. cbn [ih_searched ih_members]. split; [reflexivity|]. split; [apply U; apply C6; left; reflexivity|].
               apply incl_appr, incl_refl.
            -- destruct (SI f x X) as (X1 & X2 & X3). split; [exact X1|]. split; [apply U; apply C4; exact X2|]. apply incl_appl. exact X3.
          * intros f x X. destruct (ST f x X) as (X1 & X2 & X3). split; [exact X1|]. split; [|exact X3].
            unfold map_union. rewrite map_at_other by congruence. rewrite C7 by exact X1. exact X2.
        + intros x X. apply in_app_or in X as [X|X]; auto.
        + eapply grows_trans; [exact C4|apply grows_union].
        + apply U. apply C6. left. reflexivity.
        + intros x X. apply U in X. apply C8. exact X.
        + reflexivity. }
    cbn zeta in ST1. destruct ST1 as (S2 & F2 & G2 & I2 & K2 & L2).
    edestruct IH as (R1 & R2 & R3 & R4 & R5 & R6 & R7); [exact S2|exact FI'|exact F2|exact E|].
    split; [exact R1|]. split; [exact R2|]. split; [intros x X; apply R3; apply in_or_app; left; exact X|].
    split; [eapply grows_trans; eassumption|]. split; [intros j [<-|J]; [apply R4; exact I2|auto]|].
    split; [|congruence]. intros x X. apply R6 in X as [X|X]; auto.
Qed.

(** ** Traits *)
Definition trait_members (ts : list trait) : list (with_scope M) :=
  flat_map (fun t => with_scope_from (ScTrait t) (db_members db (ts_fqn (t_name t)) name)) ts.
Lemma merge_traits_members : forall a mi ts q m, searching q a mi -> ih_searched m = a -> Forall (fun t => exists n, In t (db_traits db n)) ts ->
  let r := fold_left (fun qm t => let '(q, m) := qm in let '(q, other) := GetTraitMembers db q t name in Merge q m other) ts (q, m) in
  searching (fst r) a mi /\ ih_members (snd r) = ih_members m ++ trait_members ts /\ ih_searched (snd r) = a
  /\ map_at (q_maps (fst r)) a = map_at (q_maps q) a /\ q_class_cache (fst r) = q_class_cache q.
Proof.
  intros a mi. induction ts as [|t ts IH]; intros q m SE SA FT.
  - cbn. rewrite app_nil_r. auto.
  - cbn [fold_left]. inversion FT as [|? ? (n & It) FT']; subst.
    destruct (GetTraitMembers db q t name) as [q1 other] eqn:GT. destruct SE as [SV SA' SC SI ST].
    assert (H : ih_members other = with_scope_from (ScTrait t) (db_members db (ts_fqn (t_name t)) name)
      /\ map_at (q_maps q1) (ih_searched other) = [] /\ searching q1 (ih_searched m) mi /\ map_at (q_maps q1) (ih_searched m) = map_at (q_maps q) (ih_searched m)
      /\ q_class_cache q1 = q_class_cache q).
    { unfold GetTraitMembers in GT. destruct (cache_get (q_trait_cache q) (ts_fqn (t_name t)) name) as [i|] eqn:CG.
      - injection GT as <- <-. apply cache_get_In in CG. destruct (ST _ _ CG) as (C1 & C2 & u & C3 & C4).
        assert (u = t). { assert (n = ts_fqn (t_name t)) by (symmetry; exact (one_trait _ ONCE _ _ It)). subst n. exact (one_trait' _ ONCE _ _ _ C3 It). }
        subst u. split; [exact C4|]. split; [exact C2|]. split; [constructor; assumption|auto].
      - cbn in GT. injection GT as <- <-. cbn [ih_members ih_searched q_maps q_class_cache].
        assert (AT : forall b, map_at (q_maps q ++ [[]]) b = map_at (q_maps q) b).
        { intros b. unfold map_at. destruct (le_lt_dec (length (q_maps q)) b) as [L|L]; [|apply app_nth1; exact L].
          rewrite app_nth2 by exact L. rewrite (nth_overflow (q_maps q)) by exact L. destruct (b - length (q_maps q))%nat as [|[|k]]; reflexivity. }
        split; [reflexivity|]. split; [rewrite AT; unfold map_at; apply nth_overflow; lia|]. split; [|split; [apply AT|reflexivity]].
        constructor; cbn [q_maps q_interface_cache q_trait_cache].
        + rewrite app_length. lia.
        + exact SA'.
        + rewrite AT. exact SC.
        + rewrite AT. exact SI.
        + intros f x [X|X].
          * injection X as <- <-. cbn [ih_searched ih_members]. split; [lia|]. split; [rewrite AT; unfold map_at; apply nth_overflow; lia|].
            exists t. split; [|reflexivity]. rewrite (one_trait _ ONCE _ _ It). exact It.
          * destruct (ST f x X) as (X1 & X2 & X3). split; [exact X1|]. split; [rewrite AT; exact X2|exact X3]. }
    destruct H as (H1 & H2 & H3 & H4 & H5). 
    assert (ME : Merge q1 m other = (with_maps q1 (q_maps q1), Inherited (ih_members m ++ ih_members other) (ih_relations m ++ ih_relations other) (ih_searched m)))
      by (unfold Merge; rewrite (union_empty _ _ _ H2); reflexivity).
    rewrite ME.
    edestruct (IH (with_maps q1 (q_maps q1)) (Inherited (ih_members m ++ ih_members other) (ih_relations m ++ ih_relations other) (ih_searched m))) as (R1 & R2 & R3 & R4 & R5).
    + destruct H3. constructor; assumption.
    + reflexivity.
    + exact FT'.
    + split; [exact R1|]. split; [|split; [exact R3|split; [|rewrite R5; exact H5]]].
      * rewrite R2. cbn [ih_members]. rewrite H1, <- app_assoc. reflexivity.
      * rewrite R4. exact H4.
Qed.

(** ** The whole search *)
Variable c0 : class.
Hypothesis C0 : is_class c0.

Definition used_traits (c : class) : list trait := flat_map (fun u => if ts_IsEmpty u then [] else db_traits db (ts_fqn u)) (c_use c).
(** what one class contributes: its own members, then those of its traits *)
Definition level (c : class) : list (with_scope M) :=
  with_scope_from (ScClass c) (db_members db (ts_fqn (c_name c)) name) ++ (if traits then trait_members (used_traits c) else []).
Definition inherited_interface (j : interface) : Prop :=
  exists d i, ancestor db c0 d /\ implements db d i /\ super_interface db i j.
Lemma inherited_super : forall j k, inherited_interface j -> super db j k -> inherited_interface k.
Proof. intros j k (d & i & A & I & S) K. exists d, i. split; [exact A|]. split; [exact I|]. eapply super_step; eauto. Qed.

(** the classes already searched are marked, or there is no cycle to stop in *)
Definition lined : Prop := marks = true \/ (acyclic db /\ forall n, NoDup (db_classes db n)).

Record state (cc : list (gostr * gostr * inherited M)) (q : query M) (m mi : inherited M) (a : nat) (doneC queue : list class) : Prop := {
  st_search : searching q a mi;
  st_address : ih_searched m = a;
  st_from : from_interfaces inherited_interface (ih_members mi);
  st_members : ih_members m = flat_map level doneC;
  st_ancestors : forall d, In d doneC \/ In d queue -> is_class d /\ ancestor db c0 d;
  st_start : In c0 doneC \/ In c0 queue;
  st_parents : forall d p, In d doneC -> parent db d p -> In p doneC \/ In p queue;
  st_interfaces : forall d i, In d doneC -> implements db d i -> In (ts_fqn (i_name i)) (map_at (q_maps q) a);
  st_marks : forall x, In x (map_at (q_maps q) a) ->
      (exists d, In d doneC /\ x = ts_fqn (c_name d)) \/ (exists i, is_interface i /\ ts_fqn (i_name i) = x);
  st_marked : marks = true -> forall d, In d doneC -> In (ts_fqn (c_name d)) (map_at (q_maps q) a);
  (* the classes done are a line of parents *)
  st_line : lined -> forall pre d e post, doneC = pre ++ d :: e :: post -> parent db d e;
  st_first : lined -> forall d l, doneC = d :: l -> d = c0;
  st_queue : lined -> forall p, In p queue -> (marks = true /\ In p doneC) \/ (doneC = [] /\ p = c0) \/ exists l d, doneC = l ++ [d] /\ parent db d p;
  st_nodup : lined -> NoDup doneC;
  st_single : marks = false -> lined -> (length queue <= 1)%nat;
  st_cache : q_class_cache q = cc }.

Lemma parent_is_class : forall c p, parent db c p -> is_class p.
Proof. intros c p (_ & I). eexists. exact I. Qed.
Lemma same_class : forall c d, is_class c -> is_class d -> ts_fqn (c_name c) = ts_fqn (c_name d) -> c = d.
Proof. intros c d (n & C) (m & D) E. apply (one_class _ ONCE _ _ _ _ C D). auto. Qed.
Lemma same_parent : forall c p p', parent db c p -> parent db c p' -> p = p'.
Proof. intros c p p' (_ & P) (_ & P'). eapply (one_class _ ONCE); [exact P|exact P'|auto]. Qed.

Lemma line_rank : forall rank : class -> nat, (forall c p, parent db c p -> (rank p < rank c)%nat) ->
  forall line, (forall pre d e post, line = pre ++ d :: e :: post -> parent db d e) ->
  forall l d, line = l ++ [d] -> forall c, In c line -> (rank d <= rank c)%nat.
Proof.
  intros rank RK line STEP l. revert line STEP. induction l as [|x l IH] using rev_ind; intros line STEP d E c C.
  - rewrite E in C. destruct C as [<-|[]]. lia.
  - assert (P : parent db x d) by (apply (STEP l x d []); rewrite E, <- app_assoc; reflexivity). apply RK in P.
    rewrite E in C. apply in_app_or in C as [C|[<-|[]]]; [|lia].
    assert (rank x <= rank c)%nat; [|lia]. apply (IH (l ++ [x])); [|reflexivity|exact C].
    intros pre a b post EQ. apply (STEP pre a b (post ++ [d])). rewrite E, EQ, <- app_assoc. reflexivity.
Qed.

Lemma class_loop_members : forall ifuel cc fuel q m mi a doneC queue q' m' mi',
  state cc q m mi a doneC queue -> class_loop relate marks traits db ifuel fuel q name queue m mi = Some (q', m', mi') ->
  exists done', state cc q' m' mi' a done' [].
Proof.
  intros ifuel cc. induction fuel as [|fuel IH]; intros q m mi a doneC queue q' m' mi' ST E; [discriminate E|].
  destruct queue as [|class rest].
  - cbn in E. injection E as <- <- <-. exists doneC. exact ST.
  - rewrite class_loop_step in E. destruct ST as [S1 S2 S3 S4 S5 S6 S7 S8 S9 S10 S11 S12 S13 S14 S16 S15].
    destruct (S5 class (or_intror (or_introl eq_refl))) as [CC AC].
    destruct (marks && set_mem (ts_fqn (c_name class)) (map_at (q_maps q) (ih_searched m))) eqn:SK.
    + (* skipped: done already *)
      apply andb_prop in SK as [MK SK]. apply set_mem_In in SK. rewrite S2 in SK.
      assert (D : In class doneC).
      { destruct (S9 _ SK) as [(d & D & ED)|(i & (k & I) & EI)].
        - assert (class = d) by (apply same_class; [exact CC|apply S5; auto|exact ED]). subst d. exact D.
        - destruct CC as (n & C). destruct (no_interface_class _ ONCE _ _ _ _ C I). congruence. }
      apply (IH q m mi a doneC rest q' m' mi'); [|exact E]. constructor; try assumption.
      * intros d [H|H]; apply S5; [left|right; right]; exact H.
      * destruct S6 as [H|[<-|H]]; auto.
      * intros d p Hd P. destruct (S7 d p Hd P) as [H|[<-|H]]; auto.
      * intros Y p P. apply S13; [exact Y|right; exact P].
      * intros Y. congruence.
    + cbn zeta in E.
      (* own members and traits *)
      assert (CQ : searching (fst (class_queries traits db q m name marks class)) a mi
        /\ ih_members (snd (class_queries traits db q m name marks class)) = ih_members m ++ level class
        /\ ih_searched (snd (class_queries traits db q m name marks class)) = a
        /\ (forall x, In x (map_at (q_maps (fst (class_queries traits db q m name marks class))) a) <-> (marks = true /\ x = ts_fqn (c_name class)) \/ In x (map_at (q_maps q) a))
        /\ q_class_cache (fst (class_queries traits db q m name marks class)) = cc).
      { unfold class_queries.
        set (q1 := if marks then with_maps q (map_insert (q_maps q) (ih_searched m) (ts_fqn (c_name class))) else q).
        set (m1 := Inherited (ih_members m ++ with_scope_from (ScClass class) (db_members db (ts_fqn (c_name class)) name)) (ih_relations m) (ih_searched m)).
        assert (IN1 : forall x, In x (map_at (q_maps q1) a) <-> (marks = true /\ x = ts_fqn (c_name class)) \/ In x (map_at (q_maps q) a)).
        { intros x. unfold q1. destruct marks; [|cbn; intuition congruence]. cbn [q_maps with_maps]. unfold map_insert. rewrite S2.
          rewrite map_at_update by (apply S1). rewrite set_add_In. intuition. }
        assert (SE1 : searching q1 a mi).
        { destruct S1 as [SV SA SC SI STc]. unfold q1. destruct marks; [|constructor; assumption]. rewrite S2.
          constructor; cbn [q_maps with_maps q_interface_cache q_trait_cache].
          - unfold map_insert. rewrite map_update_length. exact SV.
          - exact SA.
          - intros j J S. unfold map_insert in S |- *. rewrite map_at_update in S |- * by exact SV. apply set_add_In in S as [S|S].
            + destruct J as (k & J). destruct CC as (n & C). destruct (no_interface_class _ ONCE _ _ _ _ C J). congruence.
            + destruct (SC j J S) as [F K]. split; [exact F|]. intros k KS. destruct (K k KS) as [H|[]]. left. apply set_add_In. auto.
          - intros f x X. destruct (SI f x X) as (X1 & X2 & X3). split; [exact X1|]. split; [|exact X3]. apply grows_insert. exact X2.
          - intros f x X. destruct (STc f x X) as (X1 & X2 & X3). split; [exact X1|]. split; [|exact X3].
            unfold map_insert. rewrite map_at_other by congruence. exact X2. }
        assert (QC1 : q_class_cache q1 = cc) by (unfold q1; destruct marks; exact S15).
        unfold level. destruct traits eqn:TR.
        - unfold merge_traits. fold (used_traits class).
          edestruct (merge_traits_members a mi (used_traits class) q1 m1) as (R1 & R2 & R3 & R4 & R5); [exact SE1|exact S2| |].
          + apply Forall_forall. intros t It. unfold used_traits in It. apply in_flat_map in It as (u & _ & It). destruct (ts_IsEmpty u); [destruct It|]. eexists. exact It.
          + split; [exact R1|]. split; [rewrite R2; cbn [ih_members m1]; rewrite <- app_assoc; reflexivity|]. split; [exact R3|].
            split; [intros x; rewrite R4; apply IN1|congruence].
        - cbn [fst snd]. split; [exact SE1|]. split; [cbn [ih_members m1]; rewrite app_nil_r; reflexivity|]. split; [exact S2|]. split; [exact IN1|exact QC1]. }
      set (q1 := fst (class_queries traits db q m name marks class)) in *. set (m1 := snd (class_queries traits db q m name marks class)) in *.
      destruct CQ as (Q1 & Q2 & Q3 & Q4 & Q5). rewrite Q3 in E.
      set (push := class_push class q1 a) in *.
      destruct (merge_interfaces relate db ifuel q1 mi (class_implements db class) name) as [[q2 mi2]|] eqn:MI; [|discriminate E].
      assert (IMP : forall i, In i (class_implements db class) <-> implements db class i).
      { intros i. unfold class_implements. rewrite in_flat_map. split.
        - intros (e & I & K). destruct (ts_IsEmpty e) eqn:EE; [destruct K|]. exists e. auto.
        - intros (e & I & EE & K). exists e. split; [exact I|]. rewrite EE. exact K. }
      edestruct (merge_interfaces_members a inherited_interface inherited_super) as (R1 & R2 & R3 & R4 & R5 & R6 & R7); [exact Q1| |exact S3|exact MI|].
      { apply Forall_forall. intros i I. apply IMP in I. split; [eapply implements_is_interface; exact I|]. exists class, i. split; [exact AC|]. split; [exact I|constructor]. }
      assert (SUB : forall x, In x (map_at (q_maps q) a) -> In x (map_at (q_maps q2) a)) by (intros x X; apply R4; apply Q4; auto).
      assert (ND : lined -> ~ In class doneC).
      { intros LI D. destruct marks eqn:MK.
        - cbn [andb] in SK. apply set_mem_out in SK. apply SK. rewrite S2. apply S10; auto.
        - assert (LI' := LI). destruct LI' as [X|[[rank RK] _]]; [congruence|].
          destruct (S13 LI class (or_introl eq_refl)) as [[X _]|[[X _]|(l & d & X & P)]]; [congruence|rewrite X in D; destruct D|].
          apply RK in P. assert (LE : (rank d <= rank class)%nat); [|lia].
          eapply (line_rank rank RK); [exact (S11 LI)|exact X|exact D]. }
      (* the marks after the class itself *)
      assert (MK1 : forall x, In x (map_at (q_maps q1) a) -> (exists d, In d (doneC ++ [class]) /\ x = ts_fqn (c_name d)) \/ (exists i, is_interface i /\ ts_fqn (i_name i) = x)).
      { intros x X. apply Q4 in X as [[_ ->]|X]; [left; exists class; split; [apply in_or_app; right; left; reflexivity|reflexivity]|].
        destruct (S9 x X) as [(d & D & ED)|H]; [left; exists d; split; [apply in_or_app; left; exact D|exact ED]|right; exact H]. }
      assert (CLS : forall d, In d (doneC ++ [class]) -> is_class d /\ ancestor db c0 d).
      { intros d D. apply in_app_or in D as [D|[<-|[]]]; [apply S5; auto|auto]. }
      (* the parents of the class are queued or done *)
      assert (PAR : forall p, parent db class p -> In p (doneC ++ [class]) \/ In p (if push then rest ++ db_classes db (ts_fqn (c_extends class)) else rest)).
      { intros p [NE P]. destruct push eqn:EP; [right; apply in_or_app; right; exact P|]. left.
        unfold push, class_push in EP. rewrite NE in EP. cbn [negb andb] in EP. apply negb_false_iff, set_mem_In in EP.
        destruct (MK1 _ EP) as [(d & D & ED)|(i & (k & I) & EI)].
        - destruct (CLS d D) as [(k & Dc) _]. assert (p = d) by (eapply (one_class _ ONCE); [exact P|exact Dc|right; right; congruence]). subst d. exact D.
        - destruct (no_interface_class _ ONCE _ _ _ _ P I). congruence. }
      assert (QQ : forall p, In p (if push then rest ++ db_classes db (ts_fqn (c_extends class)) else rest) -> In p rest \/ parent db class p).
      { intros p P. destruct push eqn:EP; [|auto]. apply in_app_or in P as [P|P]; [auto|]. right. split; [|exact P].
        unfold push, class_push in EP. apply andb_prop in EP as [EP _]. apply negb_true_iff in EP. exact EP. }
      apply (IH q2 (class_relate relate db class push m1) mi2 a (doneC ++ [class]) (if push then rest ++ db_classes db (ts_fqn (c_extends class)) else rest) q' m' mi'); [|exact E]. constructor.
      * exact R1.
      * cbn. exact Q3.
      * exact R2.
      * cbn [ih_members class_relate]. rewrite Q2, S4, flat_map_app. cbn. rewrite app_nil_r. reflexivity.
      * intros d [D|D]; [apply CLS; exact D|]. apply QQ in D as [D|D]; [apply S5; right; right; exact D|].
        split; [eapply parent_is_class; exact D|eapply ancestor_parent; eauto].
      * destruct S6 as [H|[<-|H]]; [left; apply in_or_app; auto|left; apply in_or_app; right; left; reflexivity|].
        right. destruct push; [apply in_or_app; auto|exact H].
      * intros d p D P. apply in_app_or in D as [D|[<-|[]]]; [|apply PAR; exact P].
        destruct (S7 d p D P) as [H|[<-|H]]; [left; apply in_or_app; auto|left; apply in_or_app; right; left; reflexivity|].
        right. destruct push; [apply in_or_app; auto|exact H].
      * intros d i D I. apply in_app_or in D as [D|[<-|[]]]; [apply SUB; eauto|]. apply R5. apply IMP. exact I.
      * intros x X. apply R6 in X as [X|X]; auto.
      * intros MK d D. apply in_app_or in D as [D|[<-|[]]]; [apply SUB; apply S10; assumption|]. apply R4. apply Q4. auto.
      * (* line *)
        intros MK pre d e post EQ. destruct post as [|x post'].
        -- change (pre ++ [d; e]) with (pre ++ [d] ++ [e]) in EQ. rewrite app_assoc in EQ. apply app_inj_tail in EQ as [EQ ->].
           destruct (S13 MK e (or_introl eq_refl)) as [H|[[H _]|(l & d' & H & P)]].
           ++ destruct (ND MK (proj2 H)).
           ++ rewrite EQ in H. destruct pre; discriminate H.
           ++ rewrite EQ in H. apply app_inj_tail in H as [_ <-]. exact P.
        -- destruct (exists_last (l := x :: post')) as (post & z & PE); [discriminate|]. rewrite PE in EQ.
           assert (EQ' : pre ++ d :: e :: post ++ [z] = (pre ++ d :: e :: post) ++ [z]) by (rewrite <- app_assoc; reflexivity).
           rewrite EQ' in EQ. apply app_inj_tail in EQ as [EQ _]. eapply S11; eauto.
      * intros MK d l EQ. destruct doneC as [|d' l']; cbn in EQ.
        -- injection EQ as <- <-. destruct (S13 MK class (or_introl eq_refl)) as [[_ []]|[[_ H]|(l & d' & H & _)]]; [exact H|destruct l; discriminate H].
        -- injection EQ as <- _. eapply S12; eauto.
      * intros MK p P. apply QQ in P as [P|P]; [|right; right; exists doneC, class; auto].
        left. split; [destruct marks eqn:MF; [reflexivity|]; assert (LE := S16 eq_refl MK); cbn in LE; destruct rest; [destruct P|cbn in LE; lia]|].
        apply in_or_app. destruct (S13 MK p (or_intror P)) as [[_ H]|[[H ->]|(l & d & H & PD)]]; [auto| |].
        -- right. left. destruct (S13 MK class (or_introl eq_refl)) as [[_ X]|[[_ X]|(l & d' & X & _)]]; [rewrite H in X; destruct X|exact X|rewrite H in X; destruct l; discriminate X].
        -- right. left. destruct (S13 MK class (or_introl eq_refl)) as [X|[[X _]|(l' & d' & X & PD')]].
           ++ destruct (ND MK (proj2 X)).
           ++ rewrite H in X. destruct l; discriminate X.
           ++ rewrite H in X. apply app_inj_tail in X as [_ <-]. eapply same_parent; eauto.
      * intros MK. apply NoDup_app_single; [apply S14; exact MK|apply ND; exact MK].
      * intros MF LI. assert (LE := S16 MF LI). cbn in LE. destruct rest; [|cbn in LE; lia]. destruct push; [|cbn; lia]. cbn [app].
        destruct LI as [X|[_ NDC]]; [congruence|]. specialize (NDC (ts_fqn (c_extends class))).
        destruct (db_classes db (ts_fqn (c_extends class))) as [|p [|p' l]] eqn:EC; cbn; try lia. exfalso.
        assert (p = p') by (apply (one_class _ ONCE (ts_fqn (c_extends class)) (ts_fqn (c_extends class))); [hnf; rewrite EC; left; reflexivity|hnf; rewrite EC; right; left; reflexivity|left; reflexivity]).
        subst p'. inversion NDC as [|? ? X _]. apply X. left. reflexivity.
      * congruence.
Qed.

Lemma class_members : forall fuel q s q' r, first_search q name s -> GetClassMembers relate marks traits db fuel q c0 name s = Some (q', r) ->
  exists doneC ifs, ih_members r = flat_map level doneC ++ ifs
    /\ (forall d, In d doneC <-> ancestor db c0 d)
    /\ (forall x, In x ifs <-> exists j m, inherited_interface j /\ In m (db_members db (ts_fqn (i_name j)) name) /\ x = WithScope m (ScInterface j) 0%Z)
    /\ (lined -> NoDup doneC /\ (exists l, doneC = c0 :: l) /\ forall pre d e post, doneC = pre ++ d :: e :: post -> parent db d e).
Proof.
  intros fuel q0 s0 q' r FS E. unfold GetClassMembers in E. destruct (first_or_alloc _ _ _ FS) as (a0 & q1 & OA & VA & MA & (UC & UI & UT)). rewrite OA in E.
  rewrite (cache_get_unasked _ _ _ UC) in E.
  destruct (class_loop relate marks traits db fuel fuel _ name [c0] _ _) as [[[q2 m2] mi2]|] eqn:CL; [|discriminate E].
  unfold Merge in E. injection E as <- <-. cbn [ih_members].
  edestruct (class_loop_members fuel (q_class_cache q1) fuel) with (a := a0) (doneC := @nil class) as (doneC & ST); [|exact CL|].
  - constructor.
    + constructor; [exact VA|reflexivity|intros j _ J; rewrite MA in J; destruct J|intros f i J; destruct (UI f i J)|intros f i J; destruct (UT f i J)].
    + reflexivity.
    + intros x [].
    + reflexivity.
    + intros d [[]|[<-|[]]]. split; [exact C0|constructor].
    + right. left. reflexivity.
    + intros d p [].
    + intros d i [].
    + intros x J. rewrite MA in J. destruct J.
    + intros _ d [].
    + intros _ pre d e post EQ. destruct pre; discriminate EQ.
    + intros _ d l EQ. discriminate EQ.
    + intros _ p [<-|[]]. right. left. auto.
    + intros _. constructor.
    + intros _ _. cbn. lia.
    + reflexivity.
  - destruct ST as [S1 S2 S3 S4 S5 S6 S7 S8 S9 S10 S11 S12 S13 S14 S16 S15].
    assert (ALL : forall d, In d doneC <-> ancestor db c0 d).
    { intros d. split; [intros D; apply S5; auto|]. intros A. induction A as [|d p A IH P]; [destruct S6 as [H|[]]; exact H|].
      destruct (S7 d p IH P) as [H|[]]. exact H. }
    exists doneC, (ih_members mi2). split; [rewrite S4; reflexivity|]. split; [exact ALL|]. split.
    + intros x. split; [intros X; apply S3; exact X|]. intros (j & m & (d & i & A & I & SI) & Im & ->).
      assert (MARK : forall j, super_interface db i j -> is_interface j /\ In (ts_fqn (i_name j)) (map_at (q_maps q2) a0)).
      { intros k K. induction K as [|k k' K IHK SK].
        - split; [eapply implements_is_interface; exact I|]. eapply S8; [apply ALL; exact A|exact I].
        - split; [eapply super_is_interface; exact SK|]. destruct IHK as [I1 I2]. destruct (se_closed _ _ _ S1 k I1 I2) as [_ K2].
          destruct (K2 k' SK) as [H|[]]. exact H. }
      destruct (MARK j SI) as [J1 J2]. destruct (se_closed _ _ _ S1 j J1 J2) as [F _]. apply F. exact Im.
    + intros MK. split; [apply S14; exact MK|]. split; [|intros pre d e post EQ; eapply S11; eauto].
      destruct doneC as [|d l]; [destruct S6 as [[]|[]]|]. exists l. f_equal. eapply S12; eauto.
Qed.

Lemma class_members_belong_from : forall fuel q s q' r, first_search q name s -> (traits = true \/ forall d t m, ancestor db c0 d -> uses db d t -> ~ In m (db_members db (ts_fqn (t_name t)) name)) ->
  GetClassMembers relate marks traits db fuel q c0 name s = Some (q', r) ->
  forall x, In x (ih_members r) <-> exists m sc, x = WithScope m sc 0%Z /\ belongs db c0 name m sc.
Proof.
  intros fuel q s q' r FS TR E x. destruct (class_members _ _ _ _ _ FS E) as (doneC & ifs & EM & ALL & IFS & _). rewrite EM, in_app_iff, in_flat_map, IFS.
  assert (UT : forall d t, In t (used_traits d) <-> uses db d t).
  { intros d t. unfold used_traits. rewrite in_flat_map. split.
    - intros (e & I & K). destruct (ts_IsEmpty e) eqn:EE; [destruct K|]. exists e. auto.
    - intros (e & I & EE & K). exists e. split; [exact I|]. rewrite EE. exact K. }
  split.
  - intros [(d & D & X)|(j & m & (d & i & A & I & SI) & Im & ->)].
    + apply ALL in D. unfold level in X. apply in_app_or in X as [X|X].
      * apply with_scope_In in X as (m & Im & ->). exists m, (ScClass d). split; [reflexivity|]. econstructor; eauto.
      * destruct traits; [|destruct X]. apply in_flat_map in X as (t & It & X). apply UT in It. apply with_scope_In in X as (m & Im & ->).
        exists m, (ScTrait t). split; [reflexivity|]. eapply trait_member; eauto.
    + exists m, (ScInterface j). split; [reflexivity|]. eapply interface_member; eauto.
  - intros (m & sc & -> & [d m' A Im|d t m' A U Im|d i j m' A I SI Im]).
    + left. exists d. split; [apply ALL; exact A|]. unfold level. apply in_or_app. left. apply with_scope_In. exists m'. auto.
    + left. exists d. split; [apply ALL; exact A|]. unfold level. apply in_or_app. right.
      destruct traits; [|destruct TR as [TR|TR]; [discriminate TR|destruct (TR d t _ A U Im)]].
      apply in_flat_map. exists t. split; [apply UT; exact U|]. apply with_scope_In. exists m'. auto.
    + right. exists j, m'. split; [exists d, i; auto|]. auto.
Qed.
Lemma class_members_belong : forall fuel q' r, (traits = true \/ forall d t m, ancestor db c0 d -> uses db d t -> ~ In m (db_members db (ts_fqn (t_name t)) name)) ->
  GetClassMembers relate marks traits db fuel NewQuery c0 name None = Some (q', r) ->
  forall x, In x (ih_members r) <-> exists m sc, x = WithScope m sc 0%Z /\ belongs db c0 name m sc.
Proof. intros fuel q' r TR E. exact (class_members_belong_from fuel NewQuery None q' r (first_new name) TR E). Qed.
End Members.

Lemma interface_members_belong_from : forall {M} relate (db : database M) fuel i name q0 s0 q' r, first_search q0 name s0 -> declared_once db -> (exists n, In i (db_interfaces db n)) ->
  GetInterfaceMembers relate db fuel q0 i name s0 = Some (q', r) ->
  forall x, In x (ih_members r) <-> exists m sc, x = WithScope m sc 0%Z /\ interface_belongs db i name m sc.
Proof.
  intros M relate db fuel i name q0 s0 q' r FS ONCE ID E x. unfold GetInterfaceMembers in E. destruct (first_or_alloc _ _ _ FS) as (a0 & q1 & OA & VA & MA & (UC & UI & UT)).
  rewrite OA in E. rewrite (cache_get_unasked _ _ _ UI) in E.
  destruct (interface_loop relate db fuel name a0 [i] (q_maps q1) [] []) as [[[maps acc] rel]|] eqn:IL; [|discriminate E]. injection E as <- <-. cbn [ih_members].
  destruct (interface_loop_members relate db name ONCE a0 (super_interface db i) []) with (3 := IL) as (C1 & C2 & _ & _ & _ & C6 & _).
  - intros j k J K. eapply super_step; eauto.
  - exact VA.
  - constructor; [split; [exact ID|constructor]|constructor].
  - intros y [].
  - intros j _ J. rewrite MA in J. destruct J.
  - split.
    + intros X. destruct (C2 x X) as (j & m & J & Im & ->). exists m, (ScInterface j). split; [reflexivity|]. constructor; assumption.
    + intros (m & sc & -> & [j m' J Im]).
      assert (MARK : is_interface db j /\ In (ts_fqn (i_name j)) (map_at maps a0)).
      { clear Im. induction J as [|k k' K IHK SK]; [split; [exact ID|apply C6; left; reflexivity]|].
        split; [eapply super_is_interface; exact SK|]. destruct IHK as [I1 I2]. destruct (C1 k I1 I2) as [_ K2]. destruct (K2 k' SK) as [H|[]]. exact H. }
      destruct MARK as [J1 J2]. destruct (C1 j J1 J2) as [F _]. apply F. exact Im.
Qed.
Lemma interface_members_belong : forall {M} relate (db : database M) fuel i name q' r, declared_once db -> (exists n, In i (db_interfaces db n)) ->
  GetInterfaceMembers relate db fuel NewQuery i name None = Some (q', r) ->
  forall x, In x (ih_members r) <-> exists m sc, x = WithScope m sc 0%Z /\ interface_belongs db i name m sc.
Proof. intros M relate db fuel i name q' r ONCE ID E. exact (interface_members_belong_from relate db fuel i name NewQuery None q' r (first_new name) ONCE ID E). Qed.
