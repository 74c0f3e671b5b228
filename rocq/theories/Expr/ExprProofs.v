(** Resolving computes the types of the expression, whatever was resolved before. *)
From Coq Require Import String.
From Coq Require Import List Bool Arith ZArith Lia.
From Verif Require Import Base.Bytes Base.BytesProofs Base.Protocol Symbols.Symbols Symbols.KeysModel Types.TypesModel Query.QueryModel
  Expr.ExprModel Expr.ExprSpec.
Import ListNotations.
Open Scope list_scope.
Open Scope nat_scope.

Scheme shows_ind2 := Minimality for shows Sort Prop
  with shows_scope_ind2 := Minimality for shows_scope Sort Prop.
Combined Scheme shows_mutind from shows_ind2, shows_scope_ind2.

(** ** The types of an expression, computed without objects *)
Definition members_of (L : lookups) (m : member_kind) (name : gostr) (at_ : position) (scope_name : gostr) (types own : type_composite)
  : type_composite :=
  fold_left (fun own scopeType =>
    merge_all own (map (fun found => match m with
                                     | MMethod | MStaticMethod => resolveMemberTypes found types
                                     | MProperty | MStaticProperty => found
                                     end) (lk_members L m (lk_class_at L at_) (Access scope_name types) (ts_fqn scopeType) name)))
    types own.
Fixpoint denote (L : lookups) (e : expr) : type_composite :=
  match e with
  | ENothing => []
  | EKnown types => types
  | EVariable name known global value =>
      let known := if global then merge_all known (lk_globals L name) else known in
      match value with ENothing => known | _ => tc_merge (denote L value) known end
  | ECall name => merge_all [] (lk_functions L name)
  | EClass known e => tc_merge known (denote L e)
  | ESame e => denote L e
  | EElement e => dearray_all (denote L e)
  | EMember m name at_ scope_name e => members_of L m name at_ scope_name (denote L e) []
  end.

(** ** Lists *)
Lemma set_nth_length : forall A (l : list A) i x, length (set_nth l i x) = length l.
Proof. induction l as [|a l IH]; intros [|i] x; cbn; congruence || (rewrite ?IH; reflexivity). Qed.
Lemma set_nth_same : forall A (l : list A) i x, i < length l -> nth_error (set_nth l i x) i = Some x.
Proof. induction l as [|a l IH]; intros [|i] x H; cbn in *; try lia; [reflexivity|]. apply IH. lia. Qed.
Lemma set_nth_other : forall A (l : list A) i j x, i <> j -> nth_error (set_nth l i x) j = nth_error l j.
Proof.
  induction l as [|a l IH]; intros [|i] [|j] x H; cbn; try congruence; try reflexivity. apply IH. congruence.
Qed.

Lemma set_nth_twice : forall A (l : list A) i x, set_nth (set_nth l i x) i x = set_nth l i x.
Proof. induction l as [|a l IH]; intros [|i] x; cbn; [reflexivity..|]. rewrite IH. reflexivity. Qed.

(** ** Well-founded heaps *)
Definition wf (h : heap) : Prop := forall i o s, nth_error h i = Some o -> o_scope o = Some s -> s < i.
Definition starts (h : heap) : Prop := forall i o, nth_error h i = Some o ->
  o_resolved o = false /\ (o_types o = [] \/ o_kind o = KPlain \/ o_kind o = KClassAccess \/ o_kind o = KVariable).

Lemma shows_exists : forall h, wf h -> forall i, i < length h -> exists e, shows h i e.
Proof.
  intros h W i. induction i as [i IH] using lt_wf_ind. intros Hi.
  destruct (nth_error h i) as [o|] eqn:E; [|apply nth_error_None in E; lia].
  assert (SC : exists e, shows_scope h (o_scope o) e).
  { destruct (o_scope o) as [s|] eqn:Es; [|exists ENothing; constructor].
    assert (s < i) by (eapply W; eauto). destruct (IH s H ltac:(lia)) as (e & He). exists e. constructor. exact He. }
  destruct SC as (e & He). destruct (o_kind o) eqn:Ek.
  - eexists. eapply shows_known; eauto.
  - eexists. eapply shows_variable; eauto.
  - eexists. eapply shows_call; eauto.
  - eexists. eapply shows_class; eauto.
  - eexists. eapply shows_same; eauto.
  - eexists. eapply shows_element; eauto.
  - destruct (o_scope o) as [s|] eqn:Es.
    + inversion He; subst. assert (s < i) by (eapply W; eauto).
      destruct (nth_error h s) as [so|] eqn:E2; [|apply nth_error_None in E2; lia].
      eexists. eapply shows_member; eauto.
    + eexists. eapply shows_no_member; eauto.
Qed.

Lemma shows_there : forall h i e, shows h i e -> exists o, nth_error h i = Some o.
Proof. intros h i e H. inversion H; eauto. Qed.
Lemma shows_not_nothing : forall h i e, shows h i e -> e <> ENothing.
Proof. intros h i e H. inversion H; discriminate. Qed.

(** ** What a heap looks like after some questions *)
Definition uses_scope (k : kind) : bool := match k with KPlain | KCall => false | _ => true end.
Definition has_flag (k : kind) : bool := match k with KPlain | KForeach => false | _ => true end.

Inductive ready (h : heap) : nat -> Prop :=
| ready_intro : forall i o, nth_error h i = Some o ->
    (has_flag (o_kind o) = true -> o_resolved o = true) ->
    (forall s, o_scope o = Some s -> uses_scope (o_kind o) = true -> ready h s) -> ready h i.

Record same_fields (o o' : obj) : Prop := {
  sf_kind : o_kind o' = o_kind o; sf_name : o_name o' = o_name o; sf_at : o_at o' = o_at o;
  sf_scope : o_scope o' = o_scope o; sf_global : o_global o' = o_global o }.
Lemma same_fields_refl : forall o, same_fields o o.
Proof. intros o. constructor; reflexivity. Qed.
Lemma same_fields_trans : forall a b c, same_fields a b -> same_fields b c -> same_fields a c.
Proof. intros a b c [] []. constructor; congruence. Qed.
Lemma resolved_with_fields : forall o t, same_fields o (resolved_with o t).
Proof. intros o t. constructor; reflexivity. Qed.

(** nothing is forgotten from [h] to [h'] *)
Definition grows (h h' : heap) : Prop := forall i o, nth_error h i = Some o ->
  exists o', nth_error h' i = Some o' /\ same_fields o o' /\ (o_resolved o = true -> o_resolved o' = true).
Lemma grows_refl : forall h, grows h h.
Proof. intros h i o H. exists o. split; [exact H|]. split; [apply same_fields_refl|auto]. Qed.
Lemma grows_trans : forall a b c, grows a b -> grows b c -> grows a c.
Proof.
  intros a b c H1 H2 i o H. destruct (H1 i o H) as (o1 & E1 & F1 & R1). destruct (H2 i o1 E1) as (o2 & E2 & F2 & R2).
  exists o2. split; [exact E2|]. split; [exact (same_fields_trans _ _ _ F1 F2)|auto].
Qed.
Lemma grows_set : forall h i o t, nth_error h i = Some o -> grows h (set_nth h i (resolved_with o t)).
Proof.
  intros h i o t H j oj Hj. destruct (Nat.eq_dec i j) as [<-|N].
  - rewrite set_nth_same by (apply nth_error_Some; congruence). rewrite H in Hj. injection Hj as <-.
    eexists. split; [reflexivity|]. split; [apply resolved_with_fields|reflexivity].
  - rewrite set_nth_other by exact N. exists oj. split; [exact Hj|]. split; [apply same_fields_refl|auto].
Qed.
Lemma ready_grows : forall h h' i, grows h h' -> ready h i -> ready h' i.
Proof.
  intros h h' i G R. induction R as [i o H F S IH]. destruct (G i o H) as (o' & E & [K _ _ Sc _] & R).
  apply ready_intro with o'; [exact E| |].
  - rewrite K. intros HF. apply R. auto.
  - rewrite K, Sc. intros s Es U. eauto.
Qed.

Section Run.
Variables (L : lookups) (h0 : heap).
Hypothesis W : wf h0.
Hypothesis ST : starts h0.

(** the own types of an object after Resolve *)
Definition own (e : expr) : type_composite :=
  match e with
  | EVariable name known global _ => if global then merge_all known (lk_globals L name) else known
  | ESame _ => []
  | _ => denote L e
  end.

(** object [j] of the heap [h] is as it was or is resolved *)
Definition fits (h : heap) (j : nat) : Prop := exists o0 o,
  nth_error h0 j = Some o0 /\ nth_error h j = Some o /\ same_fields o0 o
  /\ (if o_resolved o then (has_flag (o_kind o) = true /\ (forall e, shows h0 j e -> o_types o = own e)
                            /\ forall s, o_scope o = Some s -> uses_scope (o_kind o) = true -> ready h s)
      else o_types o = o_types o0).

Lemma fits_grows : forall h h' j, fits h j -> grows h h' -> nth_error h' j = nth_error h j -> fits h' j.
Proof.
  intros h h' j (o0 & o & E0 & E & F & C) G S. exists o0, o. split; [exact E0|]. split; [congruence|]. split; [exact F|].
  destruct (o_resolved o); [|exact C]. destruct C as (C1 & C2 & C3). split; [exact C1|]. split; [exact C2|]. intros s Es U.
  exact (ready_grows _ _ _ G (C3 s Es U)).
Qed.

(** GetTypes of a resolved object *)
Lemma GetTypes_ready : forall h i e fuel, shows h0 i e -> (forall j, j <= i -> fits h j) -> ready h i -> i < fuel ->
  GetTypes fuel h i = Some (denote L e).
Proof.
  intros h i. induction i as [i IH] using lt_wf_ind. intros e fuel SH FI RD LT.
  destruct fuel as [|fuel]; [lia|]. cbn [GetTypes].
  destruct (FI i (le_n i)) as (o0 & o & E0 & E & [K N A S G] & C). rewrite E.
  inversion RD as [i' o' E' FL SC]; subst i'. rewrite E in E'. injection E' as <-.
  assert (REC : forall s e', o_scope o0 = Some s -> uses_scope (o_kind o) = true -> shows h0 s e' -> GetTypes fuel h s = Some (denote L e')).
  { intros s e' Es U SH'. assert (s < i) by (eapply W; eauto). apply IH; try lia.
    - exact SH'.
    - intros j Hj. apply FI. lia.
    - apply SC; [congruence|exact U]. }
  destruct (ST i o0 E0) as (ST1 & ST2). rewrite S.
  inversion SH as [i' x Ex Kx|i' x e' Ex Kx Sx|i' x Ex Kx|i' x e' Ex Kx Sx|i' x e' Ex Kx Sx|i' x e' Ex Kx Sx|i' x m Ex Kx Sx|i' x m s so e' Ex Kx Sx Eso Sh];
    subst i' e; rewrite E0 in Ex; injection Ex as <-; rewrite K; rewrite K in FL, C, REC; rewrite Kx in *; cbn [has_flag uses_scope] in *;
    try (specialize (FL eq_refl); rewrite FL in C; destruct C as (_ & OT & _); specialize (OT _ SH); cbn [own] in OT).
  - destruct (o_resolved o); [destruct C as (C & _); discriminate C|]. rewrite C. reflexivity.
  - destruct (o_scope o0) as [s|]; inversion Sx; subst.
    + rewrite (REC s e' eq_refl eq_refl ltac:(assumption)). cbn [option_map denote]. rewrite OT.
      destruct e'; try reflexivity. exfalso. eapply shows_not_nothing; [eassumption|reflexivity].
    + cbn [denote]. rewrite OT. reflexivity.
  - rewrite OT. reflexivity.
  - rewrite OT. reflexivity.
  - destruct (o_scope o0) as [s|]; inversion Sx; subst.
    + rewrite (REC s e' eq_refl eq_refl ltac:(assumption)). reflexivity.
    + rewrite OT. reflexivity.
  - destruct (o_scope o0) as [s|]; inversion Sx; subst.
    + rewrite (REC s e' eq_refl eq_refl ltac:(assumption)). reflexivity.
    + reflexivity.
  - rewrite OT. reflexivity.
  - rewrite OT. reflexivity.
Qed.

Lemma Resolve_ok : forall i h fuel, i < length h0 -> length h = length h0 -> (forall j, j <= i -> fits h j) -> i < fuel ->
  exists h', Resolve fuel L h i = Some h' /\ grows h h' /\ length h' = length h0
    /\ (forall j, j <= i -> fits h' j) /\ ready h' i /\ forall j, i < j -> nth_error h' j = nth_error h j.
Proof.
  intros i. induction i as [i IH] using lt_wf_ind. intros h fuel Hi LEN FI LT.
  destruct fuel as [|fuel]; [lia|]. cbn [Resolve].
  destruct (FI i (le_n i)) as (o0 & o & E0 & E & SF & C). assert (SF' := SF). destruct SF' as [K N A S G]. rewrite E.
  destruct (ST i o0 E0) as (ST1 & ST2).
  destruct (shows_exists h0 W i Hi) as (e & SH).
  (* an object that is already resolved *)
  assert (DONE : has_flag (o_kind o) = true -> o_resolved o = true ->
    exists h', Some h = Some h' /\ grows h h' /\ length h' = length h0
      /\ (forall j, j <= i -> fits h' j) /\ ready h' i /\ forall j, i < j -> nth_error h' j = nth_error h j).
  { intros HF R. rewrite R in C. destruct C as (C1 & C2 & C3).
    exists h. split; [reflexivity|]. split; [apply grows_refl|]. split; [exact LEN|]. split; [exact FI|]. split; [|reflexivity].
    apply ready_intro with o; auto. }
  (* the recursive call, after the object itself may have been marked *)
  assert (REC : forall h1 s, o_scope o = Some s -> length h1 = length h0 -> grows h h1 -> (forall j, j <> i -> nth_error h1 j = nth_error h j) ->
    exists h2, Resolve fuel L h1 s = Some h2 /\ grows h1 h2 /\ length h2 = length h0
      /\ (forall j, j < i -> fits h2 j) /\ ready h2 s /\ (forall j, i <= j -> nth_error h2 j = nth_error h1 j)
      /\ forall e', shows h0 s e' -> GetTypes fuel h2 s = Some (denote L e')).
  { intros h1 s Es LEN1 G1 O1. assert (Hs : s < i) by (apply (W i o0 s E0); congruence).
    assert (FI1 : forall j, j < i -> fits h1 j).
    { intros j Hj. apply (fits_grows h h1); [apply FI; lia|exact G1|apply O1; lia]. }
    destruct (IH s Hs h1 fuel ltac:(lia) LEN1 ltac:(intros; apply FI1; lia) ltac:(lia)) as (h2 & R2 & G2 & LEN2 & FI2 & RD2 & O2).
    exists h2. split; [exact R2|]. split; [exact G2|]. split; [exact LEN2|]. split.
    - intros j Hj. destruct (le_lt_dec j s) as [Hjs|Hjs]; [apply FI2; exact Hjs|].
      apply (fits_grows h1 h2); [apply FI1; exact Hj|exact G2|apply O2; exact Hjs].
    - split; [exact RD2|]. split; [intros j Hj; apply O2; lia|]. intros e' SHe. apply GetTypes_ready; auto. lia. }
  (* the object is marked in a heap where what it refers to is resolved *)
  assert (FIN : forall h2 t, length h2 = length h0 -> (forall j, j < i -> fits h2 j) ->
    (exists oi, nth_error h2 i = Some oi) ->
    has_flag (o_kind o) = true -> (forall e, shows h0 i e -> t = own e) ->
    (forall s, o_scope o = Some s -> uses_scope (o_kind o) = true -> ready h2 s) ->
    nth_error h2 i = Some (resolved_with o t) -> (forall j, j <= i -> fits h2 j) /\ ready h2 i).
  { intros h2 t LEN2 FI2 _ HF OT RS Ei.
    split.
    - intros j Hj. destruct (Nat.eq_dec j i) as [->|Nj]; [|apply FI2; lia].
      exists o0, (resolved_with o t). split; [exact E0|]. split; [exact Ei|].
      split; [exact (same_fields_trans _ _ _ SF (resolved_with_fields o t))|]. cbn. split; [exact HF|]. split; [exact OT|exact RS].
    - apply ready_intro with (resolved_with o t); [exact Ei|reflexivity|exact RS]. }
  assert (HL : i < length h) by lia.
  assert (SETG : forall t, grows h (set_nth h i (resolved_with o t))) by (intros t; apply grows_set; exact E).
  assert (SETO : forall t j, j <> i -> nth_error (set_nth h i (resolved_with o t)) j = nth_error h j) by (intros t j Nj; apply set_nth_other; congruence).
  assert (SETL : forall t, length (set_nth h i (resolved_with o t)) = length h0) by (intros t; rewrite set_nth_length; exact LEN).
  assert (OWN : o_resolved o = false -> o_types o = o_types o0) by (intros R; rewrite R in C; exact C).
  (* marking the object first and following its scope afterwards *)
  assert (FIRST : forall t, has_flag (o_kind o) = true -> (forall e, shows h0 i e -> t = own e) ->
    exists h', (let h := set_nth h i (resolved_with o t) in match o_scope o with None => Some h | Some s => Resolve fuel L h s end) = Some h'
      /\ grows h h' /\ length h' = length h0 /\ (forall j, j <= i -> fits h' j) /\ ready h' i /\ forall j, i < j -> nth_error h' j = nth_error h j).
  { intros t HF OT. cbn zeta. destruct (o_scope o) as [s|] eqn:Es.
    - destruct (REC (set_nth h i (resolved_with o t)) s eq_refl (SETL t) (SETG t) (SETO t)) as (h2 & R2 & G2 & LEN2 & FI2 & RD2 & O2 & _).
      assert (Ei : nth_error h2 i = Some (resolved_with o t)) by (rewrite O2 by lia; apply set_nth_same; exact HL).
      exists h2. split; [exact R2|]. split; [exact (grows_trans _ _ _ (SETG t) G2)|]. split; [exact LEN2|].
      destruct (FIN h2 t LEN2 FI2 (ex_intro _ _ Ei) HF OT) as (F1 & F2); [intros s' Es' _; injection Es' as <-; exact RD2|exact Ei|].
      split; [exact F1|]. split; [exact F2|]. intros j Hj. rewrite O2 by lia. apply SETO. lia.
    - eexists. split; [reflexivity|]. split; [apply SETG|]. split; [apply SETL|].
      assert (Ei : nth_error (set_nth h i (resolved_with o t)) i = Some (resolved_with o t)) by (apply set_nth_same; exact HL).
      destruct (FIN (set_nth h i (resolved_with o t)) t (SETL t)) with (1 := fun j (Hj : j < i) => fits_grows h _ j (FI j (Nat.lt_le_incl _ _ Hj)) (SETG t) (SETO t j ltac:(lia))) as (F1 & F2);
        [eauto|exact HF|exact OT|discriminate|exact Ei|].
      split; [exact F1|]. split; [exact F2|]. intros j Hj. apply SETO. lia. }
  (* following the scope and marking the object afterwards *)
  assert (LAST : forall h2 s t, o_scope o = Some s -> grows h h2 -> length h2 = length h0 -> (forall j, j < i -> fits h2 j) -> ready h2 s ->
    (forall j, i < j -> nth_error h2 j = nth_error h j) -> has_flag (o_kind o) = true -> (forall e, shows h0 i e -> t = own e) ->
    grows h (set_nth h2 i (resolved_with o t)) /\ length (set_nth h2 i (resolved_with o t)) = length h0
    /\ (forall j, j <= i -> fits (set_nth h2 i (resolved_with o t)) j) /\ ready (set_nth h2 i (resolved_with o t)) i
    /\ forall j, i < j -> nth_error (set_nth h2 i (resolved_with o t)) j = nth_error h j).
  { intros h2 s t Es G2 LEN2 FI2 RD2 O2 HF OT. set (h3 := set_nth h2 i (resolved_with o t)).
    assert (Ei : nth_error h3 i = Some (resolved_with o t)) by (apply set_nth_same; lia).
    assert (O3 : forall j, j <> i -> nth_error h3 j = nth_error h2 j) by (intros j Nj; apply set_nth_other; congruence).
    assert (G3 : grows h2 h3).
    { intros j oj Hj. destruct (Nat.eq_dec j i) as [->|Nj]; [|rewrite O3 by exact Nj; exists oj; split; [exact Hj|]; split; [apply same_fields_refl|auto]].
      rewrite Ei. exists (resolved_with o t). split; [reflexivity|]. split; [|reflexivity].
      destruct (G2 i o E) as (oi & Eoi & [k2 n2 a2 s2 g2] & _). rewrite Hj in Eoi. injection Eoi as <-. constructor; cbn; congruence. }
    assert (L3 : length h3 = length h0) by (unfold h3; rewrite set_nth_length; exact LEN2).
    destruct (FIN h3 t L3) as (F1 & F2).
    - intros j Hj. apply (fits_grows h2); [apply FI2; exact Hj|exact G3|apply O3; lia].
    - eauto.
    - exact HF.
    - exact OT.
    - intros s' Es' _. rewrite Es in Es'. injection Es' as <-. exact (ready_grows _ _ _ G3 RD2).
    - exact Ei.
    - split; [exact (grows_trans _ _ _ G2 G3)|]. split; [exact L3|]. split; [exact F1|]. split; [exact F2|].
      intros j Hj. rewrite O3 by lia. apply O2. exact Hj. }
  assert (OLD : forall j, i < j -> nth_error h j = nth_error h j) by reflexivity.
  destruct (o_kind o) eqn:Ko; cbn [has_flag uses_scope] in *.
  - (* plain *)
    exists h. split; [reflexivity|]. split; [apply grows_refl|]. split; [exact LEN|]. split; [exact FI|]. split; [|exact OLD].
    apply ready_intro with o; [exact E|rewrite Ko; discriminate|rewrite Ko; discriminate].
  - (* variable *)
    destruct (o_resolved o) eqn:R; [apply DONE; reflexivity|]. apply FIRST; [reflexivity|].
    intros e' SHe. inversion SHe as [i' x Ex Kx|i' x e'' Ex Kx Sx|i' x Ex Kx|i' x e'' Ex Kx Sx|i' x e'' Ex Kx Sx|i' x e'' Ex Kx Sx|i' x m Ex Kx Sx|i' x m s so e'' Ex Kx Sx Eso Sh];
      subst i' e'; rewrite E0 in Ex; injection Ex as <-; try congruence. cbn [own]. rewrite G, N, (OWN eq_refl). reflexivity.
  - (* call *)
    destruct (o_resolved o) eqn:R; [apply DONE; reflexivity|].
    set (t := merge_all (o_types o) (lk_functions L (o_name o))).
    assert (Ei : nth_error (set_nth h i (resolved_with o t)) i = Some (resolved_with o t)) by (apply set_nth_same; exact HL).
    assert (OT : forall e, shows h0 i e -> t = own e).
    { intros e' SHe. inversion SHe as [i' x Ex Kx|i' x e'' Ex Kx Sx|i' x Ex Kx|i' x e'' Ex Kx Sx|i' x e'' Ex Kx Sx|i' x e'' Ex Kx Sx|i' x m Ex Kx Sx|i' x m s so e'' Ex Kx Sx Eso Sh];
        subst i' e'; rewrite E0 in Ex; injection Ex as <-; try congruence. cbn [own denote]. unfold t. rewrite N, (OWN eq_refl).
      destruct ST2 as [->|[D|[D|D]]]; [reflexivity|congruence..]. }
    eexists. split; [reflexivity|]. split; [apply SETG|]. split; [apply SETL|].
    destruct (FIN (set_nth h i (resolved_with o t)) t (SETL t)) with (1 := fun j (Hj : j < i) => fits_grows h _ j (FI j (Nat.lt_le_incl _ _ Hj)) (SETG t) (SETO t j ltac:(lia))) as (F1 & F2);
      [eauto|reflexivity|exact OT|discriminate|exact Ei|].
    split; [exact F1|]. split; [exact F2|]. intros j Hj. apply SETO. lia.
  - (* class access *)
    destruct (o_resolved o) eqn:R; [apply DONE; reflexivity|].
    destruct (o_scope o) as [s|] eqn:Es.
    + destruct (REC (set_nth h i (resolved_with o (o_types o))) s eq_refl (SETL _) (SETG _) (SETO _)) as (h2 & R2 & G2 & LEN2 & FI2 & RD2 & O2 & GT).
      rewrite R2. assert (Hs : s < i) by (apply (W i o0 s E0); congruence).
      destruct (shows_exists h0 W s ltac:(lia)) as (e' & SHe). rewrite (GT _ SHe).
      eexists. split; [reflexivity|].
      apply (LAST h2 s); auto; [exact (grows_trans _ _ _ (SETG _) G2)|intros j Hj; rewrite O2 by lia; apply SETO; lia|].
      intros e1 SH1. inversion SH1 as [i' x Ex Kx|i' x e'' Ex Kx Sx|i' x Ex Kx|i' x e'' Ex Kx Sx|i' x e'' Ex Kx Sx|i' x e'' Ex Kx Sx|i' x m Ex Kx Sx|i' x m s1 so e'' Ex Kx Sx Eso Sh];
        subst i' e1; rewrite E0 in Ex; injection Ex as <-; try congruence. cbn [own denote]. rewrite (OWN eq_refl).
      rewrite <- S in Sx. inversion Sx; subst.
      match goal with H : shows h0 s e'' |- _ => specialize (GT _ H); rewrite (proj2 (conj I (GetTypes_ready h2 s e' fuel SHe (fun j Hj => FI2 j (Nat.le_lt_trans _ _ _ Hj Hs)) RD2 ltac:(lia)))) in GT; injection GT as -> end.
      reflexivity.
    + destruct (FIRST (o_types o) eq_refl) as (h' & E' & P); [|exists h'; split; [exact E'|exact P]].
      intros e1 SH1. inversion SH1 as [i' x Ex Kx|i' x e'' Ex Kx Sx|i' x Ex Kx|i' x e'' Ex Kx Sx|i' x e'' Ex Kx Sx|i' x e'' Ex Kx Sx|i' x m Ex Kx Sx|i' x m s1 so e'' Ex Kx Sx Eso Sh];
        subst i' e1; rewrite E0 in Ex; injection Ex as <-; try congruence. rewrite <- S in Sx. inversion Sx; subst.
      cbn. exact (OWN eq_refl).
  - (* derived *)
    destruct (o_resolved o) eqn:R; [apply DONE; reflexivity|]. apply FIRST; [reflexivity|].
    intros e' SHe. inversion SHe as [i' x Ex Kx|i' x e'' Ex Kx Sx|i' x Ex Kx|i' x e'' Ex Kx Sx|i' x e'' Ex Kx Sx|i' x e'' Ex Kx Sx|i' x m Ex Kx Sx|i' x m s so e'' Ex Kx Sx Eso Sh];
      subst i' e'; rewrite E0 in Ex; injection Ex as <-; try congruence. cbn [own]. rewrite (OWN eq_refl).
    destruct ST2 as [->|[D|[D|D]]]; [reflexivity|congruence..].
  - (* foreach *)
    destruct (o_scope o) as [s|] eqn:Es.
    + destruct (REC h s eq_refl LEN (grows_refl h) ltac:(reflexivity)) as (h2 & R2 & G2 & LEN2 & FI2 & RD2 & O2 & _).
      exists h2. split; [exact R2|]. split; [exact G2|]. split; [exact LEN2|]. split.
      * intros j Hj. destruct (Nat.eq_dec j i) as [->|Nj]; [|apply FI2; lia].
        apply (fits_grows h); [apply FI; lia|exact G2|apply O2; lia].
      * split; [|intros j Hj; apply O2; lia]. apply ready_intro with o; [rewrite O2 by lia; exact E|rewrite Ko; discriminate|].
        intros s' Es' _. rewrite Es in Es'. injection Es' as <-. exact RD2.
    + exists h. split; [reflexivity|]. split; [apply grows_refl|]. split; [exact LEN|]. split; [exact FI|]. split; [|exact OLD].
      apply ready_intro with o; [exact E|rewrite Ko; discriminate|rewrite Es; discriminate].
  - (* member access *)
    destruct (o_resolved o) eqn:R; [apply DONE; reflexivity|].
    assert (OWN0 : o_types o = []).
    { rewrite (OWN eq_refl). destruct ST2 as [H|[D|[D|D]]]; [exact H|congruence..]. }
    destruct (o_scope o) as [s|] eqn:Es.
    + set (h1 := mark_first m h i o).
      assert (H1 : length h1 = length h0 /\ grows h h1 /\ forall j, j <> i -> nth_error h1 j = nth_error h j).
      { unfold h1, mark_first. destruct m; (split; [first [exact LEN|apply SETL]|]; split; [first [apply grows_refl|apply SETG]|]; first [reflexivity|apply SETO]). }
      destruct H1 as (LEN1 & G1 & O1).
      destruct (REC h1 s eq_refl LEN1 G1 O1) as (h2 & R2 & G2 & LEN2 & FI2 & RD2 & O2 & GT).
      cbn zeta. fold h1. rewrite R2. assert (Hs : s < i) by (apply (W i o0 s E0); congruence).
      destruct (shows_exists h0 W s ltac:(lia)) as (e' & SHe). assert (GT' := GT _ SHe). rewrite GT'.
      destruct (FI2 s Hs) as (so0 & so & Eso0 & Eso & [ks ns as_ ss gs] & _). rewrite Eso.
      eexists. split; [reflexivity|].
      apply (LAST h2 s); auto; [exact (grows_trans _ _ _ G1 G2)|intros j Hj; rewrite O2 by lia; apply O1; lia|].
      intros e1 SH1. inversion SH1 as [i' x Ex Kx|i' x e'' Ex Kx Sx|i' x Ex Kx|i' x e'' Ex Kx Sx|i' x e'' Ex Kx Sx|i' x e'' Ex Kx Sx|i' x m' Ex Kx Sx|i' x m' s1 so1 e'' Ex Kx Sx Eso1 Sh];
        subst i' e1; rewrite E0 in Ex; injection Ex as <-; try congruence.
      assert (m' = m) by congruence. subst m'. rewrite <- S in Sx. injection Sx as <-. rewrite Eso0 in Eso1. injection Eso1 as <-.
      specialize (GT _ Sh). rewrite GT' in GT. injection GT as GT. cbn [own denote]. unfold member_types, members_of. rewrite GT, OWN0, as_, N.
      assert (SN : ScopeName so = ScopeName so0) by (unfold ScopeName; rewrite ks, ns; reflexivity). rewrite SN. reflexivity.
    + destruct (FIRST (o_types o) eq_refl) as (h' & E' & P).
      * intros e1 SH1. inversion SH1 as [i' x Ex Kx|i' x e'' Ex Kx Sx|i' x Ex Kx|i' x e'' Ex Kx Sx|i' x e'' Ex Kx Sx|i' x e'' Ex Kx Sx|i' x m' Ex Kx Sx|i' x m' s1 so1 e'' Ex Kx Sx Eso1 Sh];
          subst i' e1; rewrite E0 in Ex; injection Ex as <-; try congruence. rewrite OWN0. reflexivity.
      * cbn zeta in E'. exists h'. split; [|exact P]. rewrite <- E'. f_equal.
        unfold mark_first. destruct m; try reflexivity; apply set_nth_twice.
Qed.
End Run.

(** ** The objects of an analysed file *)
Lemma GetTypes_total : forall h, wf h -> forall i fuel, i < length h -> i < fuel -> exists t, GetTypes fuel h i = Some t.
Proof.
  intros h W i. induction i as [i IH] using lt_wf_ind. intros fuel Hi LT. destruct fuel as [|fuel]; [lia|]. cbn [GetTypes].
  destruct (nth_error h i) as [o|] eqn:E; [|apply nth_error_None in E; lia].
  assert (REC : forall s, o_scope o = Some s -> exists t, GetTypes fuel h s = Some t).
  { intros s Es. assert (s < i) by (eapply W; eauto). apply IH; lia. }
  destruct (o_kind o); eauto; destruct (o_scope o) as [s|]; eauto; destruct (REC s eq_refl) as (t & ->); cbn; eauto.
Qed.

Lemma merge_earlier_ok : forall h, wf h -> forall earlier types scope,
  Forall (fun v => exists o, nth_error h v = Some o /\ o_kind o = KVariable) earlier ->
  (forall s, scope = Some s -> there h s) ->
  exists t sc, merge_earlier h earlier types scope = Some (t, sc) /\ forall s, sc = Some s -> there h s.
Proof.
  intros h W earlier. induction earlier as [|v earlier IH]; intros types scope F S; cbn [merge_earlier]; [eauto|].
  inversion F as [|? ? (o & Eo & _) F']; subst. assert (Hv : v < length h) by (apply nth_error_Some; congruence).
  destruct (GetTypes_total h W v (Datatypes.S (length h)) Hv ltac:(lia)) as (t & ->). rewrite Eo. apply IH; [exact F'|].
  intros s. destruct scope; [apply S|]. intros Es. assert (s < v) by (eapply W; eauto). unfold there. lia.
Qed.

Lemma wf_app : forall h o, wf h -> (forall s, o_scope o = Some s -> there h s) -> wf (h ++ [o]).
Proof.
  intros h o W S i o' s E Es. destruct (Nat.lt_ge_cases i (length h)) as [Hi|Hi].
  - rewrite nth_error_app1 in E by exact Hi. eapply W; eauto.
  - rewrite nth_error_app2 in E by exact Hi. destruct (i - length h) as [|k] eqn:Ek; [|destruct k; discriminate E].
    injection E as <-. specialize (S s Es). unfold there in S. lia.
Qed.
Lemma starts_app : forall h o, starts h -> o_resolved o = false ->
  (o_types o = [] \/ o_kind o = KPlain \/ o_kind o = KClassAccess \/ o_kind o = KVariable) -> starts (h ++ [o]).
Proof.
  intros h o S R T i o' E. destruct (Nat.lt_ge_cases i (length h)) as [Hi|Hi].
  - rewrite nth_error_app1 in E by exact Hi. eapply S; eauto.
  - rewrite nth_error_app2 in E by exact Hi. destruct (i - length h) as [|k] eqn:Ek; [|destruct k; discriminate E].
    injection E as <-. auto.
Qed.

Lemma there_app : forall h o s, there h s -> there (h ++ [o]) s.
Proof. intros h o s H. unfold there in *. rewrite app_length. lia. Qed.
Lemma nth_app : forall A (h : list A) o v x, nth_error h v = Some x -> nth_error (h ++ [o]) v = Some x.
Proof. intros A h o v x H. rewrite nth_error_app1; [exact H|]. apply nth_error_Some. congruence. Qed.

Lemma build_ok : forall h c, wf h -> starts h -> op_ok h c -> exists h', build h c = Some h' /\ wf h' /\ starts h'.
Proof.
  intros h c W ST OK. destruct c as [k name at_ types scope|name at_ doc this earlier global value]; cbn [build].
  - destruct OK as (NV & S & T). eexists. split; [reflexivity|]. split; [apply wf_app; assumption|].
    apply starts_app; [exact ST|reflexivity|]. cbn. tauto.
  - destruct OK as (F & V). destruct (str_eqb name (B "$this")).
    + set (h1 := h ++ [Obj KPlain [] at_ this None false false]).
      assert (W1 : wf h1) by (apply wf_app; [exact W|discriminate]).
      assert (S1 : starts h1) by (apply starts_app; [exact ST|reflexivity|cbn; tauto]).
      destruct (merge_earlier_ok h1 W1 earlier doc (Some (length h))) as (t & sc & -> & SC).
      { eapply Forall_impl; [|exact F]. intros v (o & Eo & K). exists o. split; [exact (nth_app _ _ _ _ _ Eo)|exact K]. }
      { intros s E. injection E as <-. unfold there, h1. rewrite app_length. cbn. lia. }
      eexists. split; [reflexivity|]. split.
      * apply wf_app; [exact W1|]. cbn. intros s E. destruct value as [e|]; [injection E as <-; apply there_app; apply V; reflexivity|auto].
      * apply starts_app; [exact S1|reflexivity|cbn; tauto].
    + destruct (merge_earlier_ok h W earlier doc None F ltac:(discriminate)) as (t & sc & -> & SC).
      eexists. split; [reflexivity|]. split.
      * apply wf_app; [exact W|]. cbn. intros s E. destruct value as [e|]; [apply V; exact E|auto].
      * apply starts_app; [exact ST|reflexivity|cbn; tauto].
Qed.

Lemma analysed_ok : forall h, analysed h -> wf h /\ starts h.
Proof.
  intros h A. induction A as [|h c h' A (W & S) OK B].
  - split; intros i o; destruct i; discriminate.
  - destruct (build_ok h c W S OK) as (h2 & E & H). rewrite B in E. injection E as ->. exact H.
Qed.

(** ** Questions *)
Lemma fits_start : forall L h, starts h -> forall j, j < length h -> fits L h h j.
Proof.
  intros L h ST j Hj. destruct (nth_error h j) as [o|] eqn:E; [|apply nth_error_None in E; lia].
  exists o, o. split; [exact E|]. split; [exact E|]. split; [apply same_fields_refl|].
  destruct (ST j o E) as (-> & _). reflexivity.
Qed.

Definition fit (L : lookups) (h0 h : heap) : Prop := length h = length h0 /\ forall j, j < length h0 -> fits L h0 h j.

Lemma ask_ok : forall L h0 h i e, wf h0 -> starts h0 -> fit L h0 h -> shows h0 i e -> exists h', ask L h i = Some (h', denote L e) /\ fit L h0 h'.
Proof.
  intros L h0 h i e W ST (LEN & F) SH. assert (Hi : i < length h0).
  { destruct (shows_there _ _ _ SH) as (o & E). apply nth_error_Some. congruence. }
  destruct (Resolve_ok L h0 W ST i h (S (length h)) Hi LEN) as (h' & R & G & LEN' & F' & RD & O); [intros j Hj; apply F; lia|lia|].
  exists h'. unfold ask. rewrite R. rewrite (GetTypes_ready L h0 W ST h' i e); [|exact SH|exact F'|exact RD|lia].
  split; [reflexivity|]. split; [exact LEN'|]. intros j Hj. destruct (le_lt_dec j i) as [H|H]; [apply F'; exact H|].
  apply (fits_grows L h0 h); [apply F; exact Hj|exact G|apply O; exact H].
Qed.

Lemma asked_fit : forall L h0 is h, wf h0 -> starts h0 -> asked L h0 is h -> fit L h0 h.
Proof.
  intros L h0 is h W ST A. induction A as [|is h1 i h2 types A IH T E].
  - split; [reflexivity|apply fits_start; exact ST].
  - destruct (shows_exists h0 W i T) as (e & SH). destruct (ask_ok L h0 h1 i e W ST IH SH) as (h' & E' & F). rewrite E in E'. injection E' as -> _.
    exact F.
Qed.

(** ** The computed types are the types of the specification *)
Lemma listed_app : forall a b f n, listed (a ++ b) f n <-> listed a f n \/ listed b f n.
Proof.
  intros a b f n. unfold listed. split.
  - intros (t & I & H). apply in_app_or in I. destruct I; [left|right]; eauto.
  - intros [(t & I & H)|(t & I & H)]; exists t; (split; [apply in_or_app; auto|exact H]).
Qed.
Lemma listed_cons : forall t l f n, listed (t :: l) f n <-> (ts_fqn t = f /\ ts_array t = n) \/ listed l f n.
Proof.
  intros t l f n. unfold listed. cbn. split.
  - intros (x & [<-|I] & H); [left; exact H|right; eauto].
  - intros [H|(x & I & H)]; [exists t; auto|exists x; auto].
Qed.
Lemma listed_nil : forall f n, ~ listed [] f n.
Proof. intros f n (t & [] & _). Qed.
Definition level_free (l : gostr -> Z -> Prop) : Prop := forall f n m, l f n -> l f m -> n = m.

Lemma hasFQN_listed : forall l f, hasFQN l f = true -> exists n, listed l f n.
Proof.
  intros l f H. unfold hasFQN in H. apply existsb_exists in H. destruct H as (t & I & E). apply str_eqb_eq in E.
  exists (ts_array t), t. auto.
Qed.
Lemma add_listed : forall P l t, level_free P -> (forall f n, listed l f n -> P f n) -> P (ts_fqn t) (ts_array t) ->
  forall f n, listed (tc_add l t) f n <-> listed l f n \/ (ts_fqn t = f /\ ts_array t = n).
Proof.
  intros P l t LF HL HT f n. unfold tc_add. destruct (hasFQN l (ts_fqn t)) eqn:H.
  - split; [auto|]. intros [H'|(<- & <-)]; [exact H'|]. destruct (hasFQN_listed _ _ H) as (m & Hm).
    rewrite (LF _ _ _ HT (HL _ _ Hm)). exact Hm.
  - rewrite listed_app, listed_cons. split; [intros [A|[B|C]]; [auto|auto|destruct (listed_nil _ _ C)]|tauto].
Qed.
(** folds that add types *)
Lemma fold_listed : forall A (P : gostr -> Z -> Prop) (step : type_composite -> A -> type_composite) (adds : A -> gostr -> Z -> Prop) xs,
  (forall acc x, In x xs -> (forall f n, listed acc f n -> P f n) -> (forall f n, adds x f n -> P f n) ->
     forall f n, listed (step acc x) f n <-> listed acc f n \/ adds x f n) ->
  forall acc, (forall f n, listed acc f n -> P f n) -> (forall x, In x xs -> forall f n, adds x f n -> P f n) ->
  forall f n, listed (fold_left step xs acc) f n <-> listed acc f n \/ exists x, In x xs /\ adds x f n.
Proof.
  intros A P step adds xs. induction xs as [|x xs IH]; intros ST acc HA HX f n; cbn [fold_left].
  - split; [auto|]. intros [H|(x & [] & _)]. exact H.
  - assert (S1 : forall f n, listed (step acc x) f n <-> listed acc f n \/ adds x f n).
    { apply ST; [left; reflexivity|exact HA|apply HX; left; reflexivity]. }
    rewrite IH.
    + rewrite S1. split; [intros [[H|H]|(y & I & H)]|intros [H|(y & [->|I] & H)]]; eauto 6 using in_eq, in_cons.
    + intros acc' y I. apply ST. right. exact I.
    + intros f' n' H. apply S1 in H. destruct H as [H|H]; [auto|]. apply (HX x); [left; reflexivity|exact H].
    + intros y I. apply HX. right. exact I.
Qed.
Lemma merge_listed : forall P l xs, level_free P -> (forall f n, listed l f n -> P f n) -> (forall f n, listed xs f n -> P f n) ->
  forall f n, listed (tc_merge l xs) f n <-> listed l f n \/ listed xs f n.
Proof.
  intros P l xs LF HL HX f n. unfold tc_merge.
  rewrite (fold_listed _ P tc_add (fun t f n => ts_fqn t = f /\ ts_array t = n)).
  - split; (intros [H|(t & H)]; [auto|right; exists t; tauto]).
  - intros acc t I HA HT f' n'. apply (add_listed P); auto.
  - exact HL.
  - intros t I f' n' (<- & <-). apply HX. exists t. auto.
Qed.
Lemma merge_all_listed : forall P l xs, level_free P -> (forall f n, listed l f n -> P f n) -> (forall x, In x xs -> forall f n, listed x f n -> P f n) ->
  forall f n, listed (merge_all l xs) f n <-> listed l f n \/ exists x, In x xs /\ listed x f n.
Proof.
  intros P l xs LF HL HX. unfold merge_all. apply (fold_listed _ P tc_merge listed); auto.
  intros acc x I HA HT f' n'. apply (merge_listed P); auto.
Qed.
Lemma shift_listed : forall P l xs k, level_free P -> (forall f n, listed l f n -> P f n) -> (forall f n, listed xs f n -> P f (n + k)%Z) ->
  forall f n, listed (tc_mergeWithArrayLevel l xs k) f n <-> listed l f n \/ exists j, listed xs f j /\ n = (j + k)%Z.
Proof.
  intros P l xs k LF HL HX f n. unfold tc_mergeWithArrayLevel.
  rewrite (fold_listed _ P _ (fun t f n => ts_fqn t = f /\ (ts_array t + k)%Z = n)).
  - split; (intros [H|H]; [auto|right]).
    + destruct H as (t & I & <- & <-). exists (ts_array t). split; [exists t; auto|reflexivity].
    + destruct H as (j & (t & I & <- & <-) & ->). exists t. auto.
  - intros acc t I HA HT f' n'. apply (add_listed P acc (TS (ts_fqn t) (ts_original t) (ts_array t + k))); [exact LF|exact HA|].
    apply HT. split; reflexivity.
  - exact HL.
  - intros t I f' n' (<- & <-). apply HX. exists t. auto.
Qed.
Lemma dearray_listed : forall P xs, level_free P -> (forall f k, listed xs f k -> k <> 0%Z -> P f (k - 1)%Z) ->
  forall f n, listed (dearray_all xs) f n <-> exists k, listed xs f k /\ k <> 0%Z /\ n = (k - 1)%Z.
Proof.
  intros P xs LF HX f n. unfold dearray_all.
  rewrite (fold_listed _ P _ (fun t f n => ts_fqn t = f /\ ts_array t <> 0%Z /\ n = (ts_array t - 1)%Z)).
  - split; [intros [H|(t & I & <- & NZ & ->)]; [destruct (listed_nil _ _ H)|exists (ts_array t); split; [exists t; auto|auto]]|].
    intros (k & (t & I & <- & <-) & NZ & ->). right. exists t. auto.
  - intros acc t I HA HT f' n'. unfold Dearray. destruct (Z.eqb (ts_array t) 0) eqn:Z0.
    + apply Z.eqb_eq in Z0. split; [auto|]. intros [H|(_ & NZ & _)]; [exact H|contradiction].
    + apply Z.eqb_neq in Z0. rewrite (add_listed P acc (TS (ts_fqn t) (ts_original t) (ts_array t - 1))); [|exact LF|exact HA|].
      * cbn. split; (intros [H|H]; [auto|right]); [destruct H as (<- & <-); auto|destruct H as (<- & _ & ->); auto].
      * apply HT. auto.
  - intros f' n' H. destruct (listed_nil _ _ H).
  - intros t I f' n' (<- & NZ & ->). apply HX; [exists t; auto|exact NZ].
Qed.
Definition static_b (t : type_string) : bool := str_eqb (ts_original t) (B "static") || str_eqb (ts_original t) (B "$this").
Lemma static_b_iff : forall t, static_b t = true <-> is_static t.
Proof. intros t. unfold static_b, is_static. rewrite orb_true_iff, !str_eqb_eq. reflexivity. Qed.
Definition declares (scope : type_composite) (t : type_string) (f : gostr) (n : Z) : Prop :=
  (~ is_static t /\ ts_fqn t = f /\ ts_array t = n) \/ (is_static t /\ exists k, listed scope f k /\ n = (k + ts_array t)%Z).
Lemma member_listed : forall P types scope, level_free P ->
  (forall t, In t types -> forall f n, declares scope t f n -> P f n) ->
  forall f n, listed (resolveMemberTypes types scope) f n <-> exists t, In t types /\ declares scope t f n.
Proof.
  intros P types scope LF HX f n. unfold resolveMemberTypes.
  rewrite (fold_listed _ P _ (declares scope)).
  - split; [intros [H|H]; [destruct (listed_nil _ _ H)|exact H]|auto].
  - intros acc t I HA HT f' n'. fold (static_b t). destruct (static_b t) eqn:E.
    + apply static_b_iff in E. rewrite (shift_listed P); [|exact LF|exact HA|].
      * unfold declares. split; (intros [H|H]; [auto|right]); [right; split; [exact E|exact H]|].
        destruct H as [(NS & _)|(_ & H)]; [contradiction|exact H].
      * intros f1 n1 H1. apply HT. right. split; [exact E|]. exists n1. auto.
    + assert (NS : ~ is_static t) by (rewrite <- static_b_iff; congruence). rewrite (add_listed P); [|exact LF|exact HA|].
      * unfold declares. split; (intros [H|H]; [auto|right]); [left; auto|].
        destruct H as [(_ & H)|(S & _)]; [exact H|contradiction].
      * apply HT. left. auto.
  - intros f' n' H. destruct (listed_nil _ _ H).
  - exact HX.
Qed.

Lemma consistent_level : forall L e, consistent L e -> level_free (typed L e).
Proof. intros L e H. destruct e; destruct H as (H & _); exact H. Qed.

Definition brings (m : member_kind) (scope found : type_composite) (f : gostr) (n : Z) : Prop :=
  match m with
  | MProperty | MStaticProperty => listed found f n
  | MMethod | MStaticMethod => exists t, In t found /\ declares scope t f n
  end.
Lemma members_listed : forall P L m name at_ sn types, level_free P ->
  (forall c found, In c types -> In found (lk_members L m (lk_class_at L at_) (Access sn types) (ts_fqn c) name) ->
     forall f n, brings m types found f n -> P f n) ->
  forall f n, listed (members_of L m name at_ sn types []) f n
    <-> exists c found, In c types /\ In found (lk_members L m (lk_class_at L at_) (Access sn types) (ts_fqn c) name) /\ brings m types found f n.
Proof.
  intros P L m name at_ sn types LF HX f n. unfold members_of.
  rewrite (fold_listed _ P _ (fun c f n => exists found, In found (lk_members L m (lk_class_at L at_) (Access sn types) (ts_fqn c) name) /\ brings m types found f n)).
  - split; [intros [H|(c & I & found & H1 & H2)]; [destruct (listed_nil _ _ H)|eauto 6]|]. intros (c & found & I & H1 & H2). right. eauto.
  - intros acc c I HA HT f' n'.
    set (g := fun found => match m with MMethod | MStaticMethod => resolveMemberTypes found types | MProperty | MStaticProperty => found end).
    assert (GL : forall found, (forall f n, brings m types found f n -> P f n) -> forall f n, listed (g found) f n <-> brings m types found f n).
    { intros found HP f1 n1. unfold g, brings in *. destruct m; try reflexivity;
        (apply (member_listed P); [exact LF|]; intros t It f2 n2 D; apply HP; exists t; split; [exact It|exact D]). }
    assert (HP : forall found, In found (lk_members L m (lk_class_at L at_) (Access sn types) (ts_fqn c) name) -> forall f n, brings m types found f n -> P f n).
    { intros found IF f1 n1 Hb. apply HT. eauto. }
    rewrite (merge_all_listed P); [| exact LF|exact HA|].
    + split; (intros [H|H]; [auto|right]).
      * destruct H as (x & Ix & H). apply in_map_iff in Ix. destruct Ix as (found & <- & IF). exists found. split; [exact IF|].
        apply GL; [apply HP; exact IF|exact H].
      * destruct H as (found & IF & H). exists (g found). split; [apply in_map; exact IF|]. apply GL; [apply HP; exact IF|exact H].
    + intros x Ix f1 n1 H. apply in_map_iff in Ix. destruct Ix as (found & <- & IF). apply (HP found IF). apply GL; [apply HP; exact IF|exact H].
  - intros f' n' H. destruct (listed_nil _ _ H).
  - intros c I f' n' (found & IF & H). eapply HX; eauto.
Qed.

Lemma all_of_same : forall r r' T, all_of r T -> all_of r' T -> forall f n, listed r f n <-> listed r' f n.
Proof. intros r r' T H H' f n. rewrite (H f n), (H' f n). reflexivity. Qed.

Lemma declares_same : forall r T t f n, all_of r T ->
  (declares r t f n <-> (~ is_static t /\ ts_fqn t = f /\ ts_array t = n) \/ (is_static t /\ exists k, T f k /\ n = (k + ts_array t)%Z)).
Proof.
  intros r T t f n H. unfold declares. split; (intros [A|(S & k & K & E)]; [left; exact A|right; split; [exact S|exists k; split; [apply H; exact K|exact E]]]).
Qed.

Lemma member_typed : forall L m name at_ sn e r, by_types L -> all_of r (typed L e) ->
  forall f n, typed L (EMember m name at_ sn e) f n <-> exists c found, In c r
    /\ In found (lk_members L m (lk_class_at L at_) (Access sn r) (ts_fqn c) name) /\ brings m r found f n.
Proof.
  intros L m name at_ sn e r BT IH f' n'. unfold typed in *. cbn [typed_by]. split.
  - intros (r' & c & k & d & R & TC & ID & H). apply IH in TC. destruct TC as (t & It & <- & _). exists t, d. split; [exact It|].
    split; [rewrite (BT m _ sn r r'); [exact ID|exact (all_of_same _ _ _ IH R)]|].
    unfold brings. destruct m; try exact H; (destruct H as (t' & It' & D); exists t'; split; [exact It'|]; apply (declares_same _ _ _ _ _ IH); exact D).
  - intros (c & d & Ic & ID & H). exists r, (ts_fqn c), (ts_array c), d. split; [exact IH|]. split; [apply IH; exists c; auto|]. split; [exact ID|].
    unfold brings in H. destruct m; try exact H; (destruct H as (t' & It' & D); exists t'; split; [exact It'|]; apply (declares_same _ _ _ _ _ IH); exact D).
Qed.

Lemma denote_typed : forall L e, by_types L -> consistent L e -> all_of (denote L e) (typed L e).
Proof.
  intros L e BT. induction e as [|types|name known global value IH|name|known e IH|e IH|e IH|m name at_ sn e IH]; intros CO f n;
    assert (LF := consistent_level _ _ CO); unfold typed in *; cbn [typed_by denote] in *.
  - split; [intros H; destruct (listed_nil _ _ H)|tauto].
  - reflexivity.
  - destruct CO as (_ & CO). specialize (IH CO).
    set (P := typed_by all_of L (EVariable name known global value)) in *.
    assert (HK : forall f n, listed known f n -> P f n) by (intros; left; assumption).
    assert (HG : global = true -> forall types, In types (lk_globals L name) -> forall f n, listed types f n -> P f n).
    { intros G types I f' n' H. right. left. eauto. }
    assert (K : forall f n, listed (if global then merge_all known (lk_globals L name) else known) f n
                <-> listed known f n \/ (global = true /\ exists types, In types (lk_globals L name) /\ listed types f n)).
    { intros f' n'. destruct global.
      - rewrite (merge_all_listed P); [|exact LF|exact HK|exact (HG eq_refl)]. split; (intros [H|H]; [auto|right]); [auto|tauto].
      - split; [auto|]. intros [H|(D & _)]; [exact H|discriminate D]. }
    assert (V : forall f n, listed (match value with ENothing => if global then merge_all known (lk_globals L name) else known
                                   | _ => tc_merge (denote L value) (if global then merge_all known (lk_globals L name) else known) end) f n
                <-> listed (if global then merge_all known (lk_globals L name) else known) f n \/ listed (denote L value) f n).
    { intros f' n'. assert (M : listed (tc_merge (denote L value) (if global then merge_all known (lk_globals L name) else known)) f' n'
          <-> listed (if global then merge_all known (lk_globals L name) else known) f' n' \/ listed (denote L value) f' n').
      { rewrite (merge_listed P); [tauto|exact LF| |].
        - intros f1 n1 H. right. right. apply IH. exact H.
        - intros f1 n1 H. apply K in H. unfold P. cbn [typed_by]. tauto. }
      destruct value; try exact M. cbn. split; [auto|]. intros [H|H]; [exact H|destruct (listed_nil _ _ H)]. }
    rewrite V, K. specialize (IH f n). tauto.
  - rewrite (merge_all_listed (typed_by all_of L (ECall name))); [|exact LF| |].
    + split; [intros [H|H]; [destruct (listed_nil _ _ H)|exact H]|auto].
    + intros f' n' H. destruct (listed_nil _ _ H).
    + intros x I f' n' H. exists x. auto.
  - destruct CO as (_ & CO). specialize (IH CO). rewrite (merge_listed (typed_by all_of L (EClass known e))); [|exact LF| |].
    + specialize (IH f n). tauto.
    + intros f' n' H. left. exact H.
    + intros f' n' H. right. apply IH. exact H.
  - destruct CO as (_ & CO). apply (IH CO).
  - destruct CO as (_ & CO). specialize (IH CO). rewrite (dearray_listed (typed_by all_of L (EElement e))); [|exact LF|].
    + split; (intros (k & H & R); exists k; split; [apply IH; exact H|exact R]).
    + intros f' k H NZ. exists k. split; [apply IH; exact H|auto].
  - destruct CO as (_ & CO). specialize (IH CO).
    set (P := typed_by all_of L (EMember m name at_ sn e)) in *.
    assert (X : forall f n, P f n <-> exists c found, In c (denote L e)
        /\ In found (lk_members L m (lk_class_at L at_) (Access sn (denote L e)) (ts_fqn c) name) /\ brings m (denote L e) found f n).
    { intros f' n'. apply member_typed; assumption. }
    rewrite (members_listed P); [rewrite <- X; reflexivity|exact LF|].
    intros c found Ic IF f' n' H. apply X. eauto.
Qed.

(** ** Without consistency: every computed type is derivable *)
Lemma add_sound : forall l t f n, listed (tc_add l t) f n -> listed l f n \/ (ts_fqn t = f /\ ts_array t = n).
Proof.
  intros l t f n. unfold tc_add. destruct (hasFQN l (ts_fqn t)); [auto|]. rewrite listed_app, listed_cons.
  intros [A|[B|C]]; [auto|auto|destruct (listed_nil _ _ C)].
Qed.
Lemma fold_sound : forall A (step : type_composite -> A -> type_composite) (adds : A -> gostr -> Z -> Prop) xs,
  (forall acc x, In x xs -> forall f n, listed (step acc x) f n -> listed acc f n \/ adds x f n) ->
  forall acc f n, listed (fold_left step xs acc) f n -> listed acc f n \/ exists x, In x xs /\ adds x f n.
Proof.
  intros A step adds xs. induction xs as [|x xs IH]; intros ST acc f n H; cbn [fold_left] in H; [auto|].
  destruct (IH (fun acc' y I => ST acc' y (or_intror I)) _ _ _ H) as [H'|(y & I & H')].
  - destruct (ST acc x (or_introl eq_refl) _ _ H') as [H2|H2]; [auto|]. right. exists x. split; [left; reflexivity|exact H2].
  - right. exists y. split; [right; exact I|exact H'].
Qed.
Lemma merge_sound : forall l xs f n, listed (tc_merge l xs) f n -> listed l f n \/ listed xs f n.
Proof.
  intros l xs f n H. unfold tc_merge in H. apply (fold_sound _ _ (fun t f n => ts_fqn t = f /\ ts_array t = n)) in H.
  - destruct H as [H|(t & I & H)]; [auto|right; exists t; auto].
  - intros acc t _. apply add_sound.
Qed.
Lemma merge_all_sound : forall l xs f n, listed (merge_all l xs) f n -> listed l f n \/ exists x, In x xs /\ listed x f n.
Proof. intros l xs f n H. unfold merge_all in H. apply (fold_sound _ _ listed) in H; [exact H|]. intros acc x _. apply merge_sound. Qed.
Lemma member_sound : forall types scope f n, listed (resolveMemberTypes types scope) f n -> exists t, In t types /\ declares scope t f n.
Proof.
  intros types scope f n H. unfold resolveMemberTypes in H. apply (fold_sound _ _ (declares scope)) in H.
  - destruct H as [H|H]; [destruct (listed_nil _ _ H)|exact H].
  - intros acc t _ f' n' H'. fold (static_b t) in H'. destruct (static_b t) eqn:E.
    + apply static_b_iff in E. unfold tc_mergeWithArrayLevel in H'.
      apply (fold_sound _ _ (fun x f n => ts_fqn x = f /\ (ts_array x + ts_array t)%Z = n)) in H'.
      * destruct H' as [H'|(x & I & <- & <-)]; [auto|]. right. right. split; [exact E|]. exists (ts_array x). split; [exists x; auto|reflexivity].
      * intros acc' x _ f1 n1 H1. apply add_sound in H1. exact H1.
    + apply add_sound in H'. destruct H' as [H'|H']; [auto|]. right. left. split; [rewrite <- static_b_iff; congruence|exact H'].
Qed.
Lemma members_sound : forall L m name at_ sn types f n, listed (members_of L m name at_ sn types []) f n ->
  exists c found, In c types /\ In found (lk_members L m (lk_class_at L at_) (Access sn types) (ts_fqn c) name) /\ brings m types found f n.
Proof.
  intros L m name at_ sn types f n H. unfold members_of in H.
  apply (fold_sound _ _ (fun c f n => exists found, In found (lk_members L m (lk_class_at L at_) (Access sn types) (ts_fqn c) name) /\ brings m types found f n)) in H.
  - destruct H as [H|(c & I & found & H1 & H2)]; [destruct (listed_nil _ _ H)|eauto 6].
  - intros acc c _ f' n' H'. apply merge_all_sound in H'. destruct H' as [H'|(x & I & H')]; [auto|]. right.
    apply in_map_iff in I. destruct I as (found & <- & I). exists found. split; [exact I|]. unfold brings.
    destruct m; try exact H'; apply member_sound; exact H'.
Qed.
Lemma denote_derivable : forall L e, some_of (denote L e) (derivable L e).
Proof.
  intros L e. induction e as [|types|name known global value IH|name|known e IH|e IH|e IH|m name at_ sn e IH]; intros f n H;
    unfold derivable in *; cbn [typed_by denote] in *.
  - destruct (listed_nil _ _ H).
  - exact H.
  - assert (K : listed (if global then merge_all known (lk_globals L name) else known) f n ->
                listed known f n \/ (global = true /\ exists types, In types (lk_globals L name) /\ listed types f n)).
    { destruct global; [|auto]. intros HK. apply merge_all_sound in HK. tauto. }
    assert (V : listed (if global then merge_all known (lk_globals L name) else known) f n \/ listed (denote L value) f n).
    { destruct value; try (apply merge_sound in H; tauto). auto. }
    destruct V as [V|V]; [apply K in V; tauto|]. right. right. exact (IH _ _ V).
  - apply merge_all_sound in H. destruct H as [H|H]; [destruct (listed_nil _ _ H)|exact H].
  - apply merge_sound in H. destruct H as [H|H]; [auto|right; exact (IH _ _ H)].
  - exact (IH _ _ H).
  - unfold dearray_all in H. apply (fold_sound _ _ (fun t f n => ts_fqn t = f /\ ts_array t <> 0%Z /\ n = (ts_array t - 1)%Z)) in H.
    + destruct H as [H|(t & I & <- & NZ & ->)]; [destruct (listed_nil _ _ H)|]. exists (ts_array t). split; [|auto]. apply IH. exists t. auto.
    + intros acc t _ f' n' H'. unfold Dearray in H'. destruct (Z.eqb (ts_array t) 0) eqn:Z0; [auto|]. apply Z.eqb_neq in Z0.
      apply add_sound in H'. cbn in H'. destruct H' as [H'|(<- & <-)]; auto.
  - apply members_sound in H. destruct H as (c & d & Ic & ID & H).
    exists (denote L e), (ts_fqn c), (ts_array c), d. split; [exact IH|]. split; [apply IH; exists c; auto|]. split; [exact ID|].
    unfold brings in H. destruct m; try exact H;
      (destruct H as (t & It & [D|(S & k & K & E)]); exists t; (split; [exact It|]); [left; exact D|right; split; [exact S|]; exists k; split; [exact (IH _ _ K)|exact E]]).
Qed.

(** ** Which expression an object stands for *)
Lemma shows_unique : forall h, (forall i e, shows h i e -> forall e', shows h i e' -> e' = e)
  /\ (forall s e, shows_scope h s e -> forall e', shows_scope h s e' -> e' = e).
Proof.
  intros h. apply (shows_mutind h (fun i e => forall e', shows h i e' -> e' = e) (fun s e => forall e', shows_scope h s e' -> e' = e)).
  - intros i o E K e' H. inversion H; subst; congruence.
  - intros i o e E K S IH e' H. inversion H as [| ? x e1 E1 K1 S1| | | | | |]; subst; try congruence.
    rewrite E in E1. injection E1 as <-. rewrite (IH _ S1). reflexivity.
  - intros i o E K e' H. inversion H; subst; congruence.
  - intros i o e E K S IH e' H. inversion H as [| | | ? x e1 E1 K1 S1| | | |]; subst; try congruence.
    rewrite E in E1. injection E1 as <-. rewrite (IH _ S1). reflexivity.
  - intros i o e E K S IH e' H. inversion H as [| | | | ? x e1 E1 K1 S1| | |]; subst; try congruence.
    rewrite E in E1. injection E1 as <-. rewrite (IH _ S1). reflexivity.
  - intros i o e E K S IH e' H. inversion H as [| | | | | ? x e1 E1 K1 S1| |]; subst; try congruence.
    rewrite E in E1. injection E1 as <-. rewrite (IH _ S1). reflexivity.
  - intros i o m E K S e' H. inversion H; subst; congruence.
  - intros i o m s so e E K S Eso SH IH e' H. inversion H as [| | | | | | |? x m1 s1 so1 e1 E1 K1 S1 Eso1 SH1]; subst; try congruence.
    rewrite E in E1. injection E1 as <-. rewrite S in S1. injection S1 as <-. rewrite Eso in Eso1. injection Eso1 as <-.
    rewrite K in K1. injection K1 as <-. rewrite (IH _ SH1). reflexivity.
  - intros e' H. inversion H. reflexivity.
  - intros s e SH IH e' H. inversion H; subst. auto.
Qed.

Lemma shows_app : forall h o, (forall i e, shows h i e -> shows (h ++ [o]) i e) /\ (forall s e, shows_scope h s e -> shows_scope (h ++ [o]) s e).
Proof.
  intros h o. apply (shows_mutind h (fun i e => shows (h ++ [o]) i e) (fun s e => shows_scope (h ++ [o]) s e)).
  - intros i x E K. apply shows_known; [apply nth_app; exact E|exact K].
  - intros i x e E K S IH. apply shows_variable; [apply nth_app; exact E|exact K|exact IH].
  - intros i x E K. apply shows_call; [apply nth_app; exact E|exact K].
  - intros i x e E K S IH. apply shows_class; [apply nth_app; exact E|exact K|exact IH].
  - intros i x e E K S IH. apply shows_same with x; [apply nth_app; exact E|exact K|exact IH].
  - intros i x e E K S IH. apply shows_element with x; [apply nth_app; exact E|exact K|exact IH].
  - intros i x m E K S. apply shows_no_member; [apply nth_app; exact E|exact K|exact S].
  - intros i x m s so e E K S Eso SH IH. apply shows_member with s; [apply nth_app; exact E|exact K|exact S|apply nth_app; exact Eso|exact IH].
  - constructor.
  - intros s e SH IH. constructor. exact IH.
Qed.

(** ** A later occurrence of a variable *)
Lemma hasFQN_iff : forall l f, hasFQN l f = true <-> exists n, listed l f n.
Proof.
  intros l f. split; [apply hasFQN_listed|]. intros (n & t & I & E & _). unfold hasFQN. apply existsb_exists. exists t. split; [exact I|].
  apply str_eqb_eq. exact E.
Qed.
Lemma add_names : forall l t f, (exists n, listed l f n) \/ ts_fqn t = f -> exists n, listed (tc_add l t) f n.
Proof.
  intros l t f H. unfold tc_add. destruct (hasFQN l (ts_fqn t)) eqn:E.
  - destruct H as [H|<-]; [exact H|]. apply hasFQN_iff. exact E.
  - destruct H as [(n & H)|<-]; [exists n|exists (ts_array t)]; rewrite listed_app, listed_cons; auto.
Qed.
Lemma merge_names : forall xs l f, (exists n, listed l f n) \/ (exists n, listed xs f n) -> exists n, listed (tc_merge l xs) f n.
Proof.
  unfold tc_merge. induction xs as [|t xs IH]; intros l f H; cbn [fold_left].
  - destruct H as [H|(n & H)]; [exact H|destruct (listed_nil _ _ H)].
  - apply IH. destruct H as [H|(n & H)]; [left; apply add_names; auto|]. rewrite listed_cons in H.
    destruct H as [(<- & _)|H]; [left; apply add_names; auto|right; eauto].
Qed.
Lemma later_variable : forall L h name at_ doc this v o global h' e, wf h ->
  nth_error h v = Some o -> o_kind o = KVariable -> name <> B "$this" ->
  build h (NewVariable name at_ doc this [v] global None) = Some h' ->
  o_name o = name -> (o_global o = true -> global = true) -> shows h v e ->
  exists e', shows h' (length h) e' /\ forall f n, typed L e f n -> exists m, typed L e' f m.
Proof.
  intros L h name at_ doc this v o global h' e W E K NT BU NM G SH. cbn [build] in BU.
  destruct (str_eqb name (B "$this")) eqn:T; [apply str_eqb_eq in T; contradiction|].
  cbn [merge_earlier] in BU. rewrite E in BU. cbn [GetTypes] in BU. rewrite E, K in BU.
  inversion SH as [|? x e1 E1 K1 S1| | | | | |]; subst; rewrite E in *; try congruence. injection E1 as <-.
  set (found := match o_scope o with None => Some (o_types o) | Some s => option_map (fun types => tc_merge types (o_types o)) (GetTypes (length h) h s) end) in BU.
  destruct found as [found'|] eqn:EF; [|discriminate BU]. injection BU as <-.
  exists (EVariable (o_name o) (tc_merge doc found') global e1). split.
  - apply (shows_variable _ (length h) (Obj KVariable (o_name o) at_ (tc_merge doc found') (o_scope o) global false)); [|reflexivity|].
    + rewrite nth_error_app2, Nat.sub_diag by lia. reflexivity.
    + cbn [o_scope]. apply shows_app. exact S1.
  - intros f n TY. unfold typed in *. cbn [typed_by] in *. destruct TY as [TY|[TY|TY]].
    + assert (N : exists m, listed (tc_merge doc found') f m).
      { apply merge_names. right. unfold found in EF. destruct (o_scope o) as [s|]; [|injection EF as <-; eauto].
        destruct (GetTypes (length h) h s) as [ts|]; [|discriminate EF]. injection EF as <-. apply merge_names. eauto. }
      destruct N as (m & N). exists m. auto.
    + destruct TY as (TG & types & I & H). exists n. right. left. eauto.
    + exists n. auto.
Qed.
