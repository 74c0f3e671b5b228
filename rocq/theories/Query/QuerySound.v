(** The members that are collected are declared somewhere, whatever is declared
    twice and whatever was asked before. *)
From Coq Require Import List Bool ZArith Lia.
From Verif Require Import Base.Bytes Base.BytesProofs Symbols.Symbols Symbols.KeysModel Query.QueryModel Query.QuerySpec Query.QueryProofs Query.QueryMembers.
Import ListNotations.
Open Scope list_scope.

Section Sound.
Context {M : Type}.
Variables (relate marks traits : bool) (db : database M) (name : gostr) (ok : gostr -> Prop) (P : M -> Prop).
Hypothesis CLASS : forall n c, In c (db_classes db n) -> ok (ts_fqn (c_name c)).
Hypothesis INTERFACE : forall n c, In c (db_interfaces db n) -> ok (ts_fqn (i_name c)).
Hypothesis TRAIT : forall n c, In c (db_traits db n) -> ok (ts_fqn (t_name c)).
Hypothesis MEMBER : forall s m, ok s -> In m (db_members db s name) -> P m.

Definition clean_members (l : list (with_scope M)) : Prop := Forall (fun x => P (ws_member x)) l.
Definition clean_cache (c : list (gostr * gostr * inherited M)) : Prop := forall f i, In (f, name, i) c -> clean_members (ih_members i).
Definition clean (q : query M) : Prop := clean_cache (q_class_cache q) /\ clean_cache (q_interface_cache q) /\ clean_cache (q_trait_cache q).

Lemma clean_new : clean NewQuery.
Proof. split; [|split]; intros f i []. Qed.
Lemma clean_maps : forall q maps, clean q -> clean (with_maps q maps).
Proof. intros q maps H. exact H. Qed.
Lemma clean_put : forall c f i, clean_cache c -> clean_members (ih_members i) -> clean_cache (cache_put c f name i).
Proof. intros c f i C I f' i' [E|H]; [injection E as _ <-; exact I|exact (C f' i' H)]. Qed.
Lemma clean_or_alloc : forall q s a q', or_alloc q s = (a, q') -> clean q -> clean q'.
Proof. intros q s a q' E C. destruct s; injection E as _ <-; exact C. Qed.
Lemma clean_from : forall sc s, ok s -> clean_members (with_scope_from sc (db_members db s name)).
Proof. intros sc s O. apply Forall_forall. intros x I. apply with_scope_In in I as (m & I & ->). exact (MEMBER s m O I). Qed.
Lemma clean_app : forall l l', clean_members l -> clean_members l' -> clean_members (l ++ l').
Proof. intros l l' A C. apply Forall_app. auto. Qed.

Lemma interface_loop_clean : forall fuel a is maps acc rel maps' acc' rel', Forall (fun i => ok (ts_fqn (i_name i))) is -> clean_members acc ->
  interface_loop relate db fuel name a is maps acc rel = Some (maps', acc', rel') -> clean_members acc'.
Proof.
  induction fuel as [|fuel IH]; intros a is maps acc rel maps' acc' rel' Oi Ca E; [discriminate E|]. cbn [interface_loop] in E.
  destruct is as [|i is]; [injection E as _ <- _; exact Ca|]. inversion Oi; subst. destruct (set_mem _ _); [exact (IH _ _ _ _ _ _ _ _ H2 Ca E)|].
  refine (IH _ _ _ _ _ _ _ _ _ _ E).
  - apply Forall_app. split; [assumption|]. apply Forall_forall. intros j I. apply filter_In in I as (I & _). apply in_flat_map in I as (e & _ & I). destruct (ts_IsEmpty e); [destruct I|exact (INTERFACE _ _ I)].
  - apply clean_app; [exact Ca|apply clean_from; assumption].
Qed.
Lemma interface_clean : forall fuel q i s q' r, ok (ts_fqn (i_name i)) -> clean q -> GetInterfaceMembers relate db fuel q i name s = Some (q', r) -> clean q' /\ clean_members (ih_members r).
Proof.
  intros fuel q i s q' r Oi C E. unfold GetInterfaceMembers in E. destruct (or_alloc q s) as (a, q1) eqn:O. pose proof (clean_or_alloc _ _ _ _ O C) as C1.
  destruct (cache_get _ _ _) as [x|] eqn:G.
  - injection E as <- <-. split; [exact C1|]. apply cache_get_In in G. destruct C1 as (_ & C2 & _). exact (C2 _ _ G).
  - destruct (interface_loop _ _ _ _ _ _ _ _ _) as [((maps, acc), rel)|] eqn:L; [|discriminate E]. injection E as <- <-.
    assert (A : clean_members acc) by (refine (interface_loop_clean _ _ _ _ _ _ _ _ _ _ _ L); [constructor; [exact Oi|constructor]|constructor]).
    split; [|exact A]. destruct C1 as (H1 & H2 & H3). split; [exact H1|split; [apply clean_put; assumption|exact H3]].
Qed.
Lemma merge_clean : forall q m o q' m', Merge q m o = (q', m') -> clean q -> clean_members (ih_members m) -> clean_members (ih_members o) -> clean q' /\ clean_members (ih_members m').
Proof. intros q m o q' m' E C Cm Co. injection E as <- <-. split; [exact C|]. apply clean_app; assumption. Qed.
Lemma trait_clean : forall q t q' r, ok (ts_fqn (t_name t)) -> clean q -> GetTraitMembers db q t name = (q', r) -> clean q' /\ clean_members (ih_members r).
Proof.
  intros q t q' r Ot C E. unfold GetTraitMembers in E. destruct (cache_get _ _ _) as [x|] eqn:G.
  - injection E as <- <-. split; [exact C|]. apply cache_get_In in G. destruct C as (_ & _ & C2). exact (C2 _ _ G).
  - injection E as <- <-. pose proof (clean_from (ScTrait t) _ Ot) as F. split; [|exact F]. destruct C as (H1 & H2 & H3). split; [exact H1|split; [exact H2|apply clean_put; assumption]].
Qed.
Lemma merge_traits_clean : forall us q m q' m', merge_traits db q m us name = (q', m') -> clean q -> clean_members (ih_members m) -> clean q' /\ clean_members (ih_members m').
Proof.
  intros us. unfold merge_traits.
  assert (F : Forall (fun t => ok (ts_fqn (t_name t))) (flat_map (fun u => if ts_IsEmpty u then [] else db_traits db (ts_fqn u)) us)).
  { apply Forall_forall. intros t I. apply in_flat_map in I as (u & _ & I). destruct (ts_IsEmpty u); [destruct I|exact (TRAIT _ _ I)]. }
  induction F as [|t ts Ot F IH]; intros q m q' m' E C Cm; [injection E as <- <-; auto|]. cbn [fold_left] in E.
  destruct (GetTraitMembers db q t name) as (q1, o) eqn:G. destruct (trait_clean _ _ _ _ Ot C G) as (C1 & Co). destruct (Merge q1 m o) as (q2, m2) eqn:Mg.
  destruct (merge_clean _ _ _ _ _ Mg C1 Cm Co) as (C2 & Cm2). exact (IH _ _ _ _ E C2 Cm2).
Qed.
Lemma merge_interfaces_clean : forall ifuel is q m q' m', Forall (fun i => ok (ts_fqn (i_name i))) is -> merge_interfaces relate db ifuel q m is name = Some (q', m') ->
  clean q -> clean_members (ih_members m) -> clean q' /\ clean_members (ih_members m').
Proof.
  induction is as [|i is IH]; intros q m q' m' Oi E C Cm; [injection E as <- <-; auto|]. inversion Oi; subst. cbn [merge_interfaces] in E.
  destruct (GetInterfaceMembers _ _ _ _ _ _ _) as [(q1, o)|] eqn:G; [|discriminate E]. destruct (interface_clean _ _ _ _ _ _ H1 C G) as (C1 & Co).
  destruct (Merge q1 m o) as (q2, m2) eqn:Mg. destruct (merge_clean _ _ _ _ _ Mg C1 Cm Co) as (C2 & Cm2). exact (IH _ _ _ _ H2 E C2 Cm2).
Qed.
Lemma class_loop_clean : forall ifuel fuel q cs m mi q' m' mi', Forall (fun c => ok (ts_fqn (c_name c))) cs ->
  class_loop relate marks traits db ifuel fuel q name cs m mi = Some (q', m', mi') -> clean q -> clean_members (ih_members m) -> clean_members (ih_members mi) ->
  clean q' /\ clean_members (ih_members m') /\ clean_members (ih_members mi').
Proof.
  intros ifuel. induction fuel as [|fuel IH]; intros q cs m mi q' m' mi' Oc E C Cm Cmi; [discriminate E|]. cbn [class_loop] in E.
  destruct cs as [|c cs]; [injection E as <- <- <-; auto|]. inversion Oc as [|? ? O1 O2]; subst. destruct (marks && _); [exact (IH _ _ _ _ _ _ _ O2 E C Cm Cmi)|].
  set (q1 := if marks then _ else q) in E. assert (C1 : clean q1) by (unfold q1; destruct marks; exact C).
  set (m1 := Inherited (ih_members m ++ _) _ _) in E. assert (Cm1 : clean_members (ih_members m1)) by (apply clean_app; [exact Cm|apply clean_from; exact O1]).
  destruct (if traits then merge_traits db q1 m1 (c_use c) name else (q1, m1)) as (q2, m2) eqn:Tr.
  assert (H2 : clean q2 /\ clean_members (ih_members m2)).
  { destruct traits; [exact (merge_traits_clean _ _ _ _ _ Tr C1 Cm1)|injection Tr as <- <-; auto]. }
  destruct H2 as (C2 & Cm2). cbv zeta in E. destruct (merge_interfaces _ _ _ _ _ _ _) as [(q3, mi3)|] eqn:Mi; [|discriminate E].
  apply merge_interfaces_clean in Mi as (C3 & Cmi3); [|apply Forall_forall; intros i I; apply in_flat_map in I as (e & _ & I); destruct (ts_IsEmpty e); [destruct I|exact (INTERFACE _ _ I)]|exact C2|exact Cmi].
  refine (IH _ _ _ _ _ _ _ _ E C3 Cm2 Cmi3). destruct (negb _ && negb _); [|exact O2]. apply Forall_app. split; [exact O2|]. apply Forall_forall. intros d I. exact (CLASS _ _ I).
Qed.
Theorem class_clean : forall fuel q c s q' r, ok (ts_fqn (c_name c)) -> clean q -> GetClassMembers relate marks traits db fuel q c name s = Some (q', r) -> clean q' /\ clean_members (ih_members r).
Proof.
  intros fuel q c s q' r Oc C E. unfold GetClassMembers in E. destruct (or_alloc q s) as (a, q1) eqn:O. pose proof (clean_or_alloc _ _ _ _ O C) as C1.
  destruct (cache_get _ _ _) as [x|] eqn:G.
  - injection E as <- <-. split; [exact C1|]. apply cache_get_In in G. destruct C1 as (C2 & _). exact (C2 _ _ G).
  - destruct (class_loop _ _ _ _ _ _ _ _ _ _ _) as [((q2, m), mi)|] eqn:L; [|discriminate E].
    apply class_loop_clean in L as (C2 & Cm & Cmi); [|constructor; [exact Oc|constructor]|exact C1|constructor|constructor].
    destruct (Merge q2 m mi) as (q3, r3) eqn:Mg. destruct (merge_clean _ _ _ _ _ Mg C2 Cm Cmi) as (C3 & Cr). injection E as <- <-. split; [|exact Cr].
    destruct C3 as (H1 & H2 & H3). split; [apply clean_put; assumption|split; assumption].
Qed.
End Sound.
