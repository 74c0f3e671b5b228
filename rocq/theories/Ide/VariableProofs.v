(** Variable tables are ordered; unused variables. *)
From Coq Require Import String.
From Coq Require Import List Bool ZArith Lia Permutation.
From Verif Require Import Base.Bytes Base.BytesProofs Base.Protocol Base.SortSearch Text.PositionModel Text.PositionSpec Claims.Positions
  Ide.VariableModel Ide.VariableSpec.
Import ListNotations.
Open Scope list_scope.

Definition le (a b : position) : Prop := at_or_before a b.
Lemma le_refl : forall a, le a a. Proof. intros. right. reflexivity. Qed.
Lemma le_trans : forall a b c, le a b -> le b c -> le a c.
Proof. intros [al ac] [bl bc] [cl cc]. unfold le, at_or_before, before; cbn. intros [H|H] [K|K]; try injection H as -> ->; try injection K as -> ->; auto; left; lia. Qed.
Lemma le_lt : forall a b, le a b <-> ~ before b a.
Proof.
  intros [al ac] [bl bc]. unfold le, at_or_before, before; cbn. split; [intros [H|H]; [lia|injection H as -> ->; lia]|]. intros H.
  destruct (Z.eq_dec al bl) as [->|]; [destruct (Z.eq_dec ac bc) as [->|]; [auto|left; lia]|left; lia].
Qed.
Lemma before_dec : forall a b, before a b \/ le b a.
Proof.
  intros a b. destruct (Z.ltb_spec (p_line a) (p_line b)); [left; left; assumption|]. destruct (Z.eqb_spec (p_line a) (p_line b)); [destruct (Z.ltb_spec (p_char a) (p_char b)); [left; right; auto|]|];
    (right; apply le_lt; unfold before; lia).
Qed.
Lemma compare_lt : forall a b, (ComparePos a b <? 0)%Z = true <-> before a b.
Proof.
  intros a b. destruct (C28_compare_positions a b) as (A & B' & C). rewrite Z.ltb_lt. split; [|intros H; apply A in H; lia].
  intros H. destruct (before_dec a b) as [L|[L|L]]; [exact L|apply C in L; lia|symmetry in L; apply B' in L; lia].
Qed.
Lemma compare_le : forall a b, (ComparePos a b <=? 0)%Z = true <-> le a b.
Proof.
  intros a b. destruct (C28_compare_positions a b) as (A & B' & C). rewrite Z.leb_le. split.
  - intros H. apply le_lt. intros L. apply C in L. lia.
  - intros [H|H]; [apply A in H; lia|apply B' in H; lia].
Qed.
Lemma compare_ge : forall a b, (0 <=? ComparePos a b)%Z = true <-> le b a.
Proof.
  intros a b. destruct (C28_compare_positions a b) as (A & B' & C). rewrite Z.leb_le. split.
  - intros H. apply le_lt. intros L. apply A in L. lia.
  - intros [H|H]; [apply C in H; lia|symmetry in H; apply B' in H; lia].
Qed.

Lemma nth_firstn : forall A k (l : list A) i, (i < k)%nat -> nth_error (firstn k l) i = nth_error l i.
Proof. induction k as [|k IH]; intros [|y l] [|i] L; cbn; try lia; auto. apply IH. lia. Qed.
Lemma nth_skipn : forall A k (l : list A) i, nth_error (skipn k l) i = nth_error l (k + i).
Proof. induction k as [|k IH]; intros [|y l] i; cbn; auto. destruct i; reflexivity. Qed.

(** ** Ordered lists *)
Fixpoint ordered (l : list context_var) : Prop :=
  match l with [] => True | c :: l => (forall x, In x l -> le (cv_start c) (cv_start x)) /\ ordered l end.
Lemma ordered_nth : forall l i j a b, ordered l -> (i <= j)%nat -> nth_error l i = Some a -> nth_error l j = Some b -> le (cv_start a) (cv_start b).
Proof.
  induction l as [|c l IH]; intros i j a b O L A B'; [destruct i; discriminate A|]. destruct O as [H O]. destruct i as [|i], j as [|j]; cbn in A, B'; try lia.
  - injection A as ->. injection B' as ->. apply le_refl.
  - injection A as ->. apply H. eapply nth_error_In. exact B'.
  - eapply (IH i j); eauto. lia.
Qed.
Lemma ordered_app : forall a b, ordered (a ++ b) <-> ordered a /\ ordered b /\ forall x y, In x a -> In y b -> le (cv_start x) (cv_start y).
Proof.
  induction a as [|c a IH]; intros b; cbn; [intuition|]. rewrite IH. setoid_rewrite in_app_iff. split.
  - intros (H & O1 & O2 & X). repeat split; auto. intros x y [<-|I] J; auto.
  - intros ((H & O1) & O2 & X). repeat split; auto. intros x [I|I]; auto.
Qed.

Lemma insert_split : forall l c, ordered l -> exists l1 l2, l = l1 ++ l2 /\ insert_var l c = l1 ++ c :: l2
  /\ (forall x, In x l1 -> le (cv_start x) (cv_start c)) /\ (forall x, In x l2 -> before (cv_start c) (cv_start x)).
Proof.
  intros l c O. unfold insert_var. destruct l as [|x0 l0]; [exists [], []; cbn; intuition|]. set (l := x0 :: l0) in *. assert (E : Nat.ltb 0 (length l) = true) by reflexivity. rewrite E.
  set (f := fun i => (ComparePos (cv_start c) (cv_start (nth i l c)) <? 0)%Z).
  destruct (sort_search_spec (length l) f) as (LE & P & Q).
  { intros a b AB BL F. unfold f in *. apply compare_lt in F. apply compare_lt. destruct (nth_error l a) as [xa|] eqn:A; [|apply nth_error_None in A; lia].
    destruct (nth_error l b) as [xb|] eqn:B'; [|apply nth_error_None in B'; lia]. rewrite (nth_error_nth _ _ _ A) in F. rewrite (nth_error_nth _ _ _ B').
    assert (L := ordered_nth _ _ _ _ _ O AB A B'). destruct (before_dec (cv_start c) (cv_start xb)) as [X|X]; [exact X|]. exfalso.
    exact (proj1 (le_lt (cv_start xa) (cv_start c)) (le_trans _ _ _ L X) F). }
  set (k := sort_search (length l) f) in *. exists (firstn k l), (skipn k l). split; [symmetry; apply firstn_skipn|]. split; [reflexivity|]. split.
  - intros x I. apply In_nth_error in I as [i N]. assert (L : (i < k)%nat) by (assert (i < length (firstn k l))%nat by (apply nth_error_Some; congruence); rewrite firstn_length in *; lia).
    assert (N' : nth_error l i = Some x) by (rewrite <- N; symmetry; apply nth_firstn; exact L).
    specialize (P i L). unfold f in P. rewrite (nth_error_nth _ _ _ N') in P. apply le_lt. intros B'. apply compare_lt in B'. congruence.
  - intros x I. apply In_nth_error in I as [i N].
    assert (N' : nth_error l (k + i) = Some x) by (rewrite <- N; symmetry; apply nth_skipn).
    assert (KL : (k + i < length l)%nat) by (apply nth_error_Some; congruence). specialize (Q ltac:(lia)). unfold f in Q. apply compare_lt in Q.
    destruct (nth_error l k) as [xk|] eqn:K; [|apply nth_error_None in K; lia]. rewrite (nth_error_nth _ _ _ K) in Q.
    assert (L := ordered_nth _ _ _ _ _ O (Nat.le_add_r k i) K N'). destruct (before_dec (cv_start c) (cv_start x)) as [X|X]; [exact X|]. exfalso.
    exact (proj1 (le_lt (cv_start xk) (cv_start c)) (le_trans _ _ _ L X) Q).
Qed.
Lemma insert_ordered : forall l c, ordered l -> ordered (insert_var l c).
Proof.
  intros l c O. destruct (insert_split l c O) as (l1 & l2 & E & -> & L1 & L2). subst l. apply ordered_app in O as (O1 & O2 & X). apply ordered_app.
  split; [exact O1|]. split; [split; [intros x I; left; auto|exact O2]|]. intros x y I [<-|J]; auto.
Qed.

(** ** The last element that satisfies a condition on its start *)
Section Last.
Variable ok : position -> bool.
Hypothesis down : forall a b, le a b -> ok b = true -> ok a = true.
Fixpoint last_ok (l : list context_var) : option context_var :=
  match l with
  | [] => None
  | c :: l => match last_ok l with Some x => Some x | None => if ok (cv_start c) then Some c else None end
  end.
Lemma last_ok_app : forall a b, last_ok (a ++ b) = match last_ok b with Some x => Some x | None => last_ok a end.
Proof. induction a as [|c a IH]; intros b; cbn; [destruct (last_ok b); reflexivity|]. rewrite IH. destruct (last_ok b); reflexivity. Qed.
Lemma last_ok_in : forall l x, last_ok l = Some x -> In x l /\ ok (cv_start x) = true.
Proof.
  induction l as [|c l IH]; intros x E; cbn in E; [discriminate E|]. destruct (last_ok l) as [y|]; [injection E as <-; destruct (IH y eq_refl); auto with datatypes|].
  destruct (ok (cv_start c)) eqn:K; [injection E as <-; auto with datatypes|discriminate E].
Qed.
Lemma last_ok_none : forall l, last_ok l = None -> forall x, In x l -> ok (cv_start x) = false.
Proof.
  induction l as [|c l IH]; intros E x I; [destruct I|]. cbn in E. destruct (last_ok l); [discriminate E|]. destruct (ok (cv_start c)) eqn:K; [discriminate E|].
  destruct I as [<-|I]; auto.
Qed.
Lemma search_last : forall l (f : nat -> bool), ordered l ->
  (forall i c, nth_error l i = Some c -> f i = negb (ok (cv_start c))) ->
  before_index l (sort_search (length l) f) = option_map cv_var (last_ok l).
Proof.
  intros l f O F. destruct (sort_search_spec (length l) f) as (LE & P & Q).
  { intros a b AB BL H. destruct (nth_error l a) as [xa|] eqn:A; [|apply nth_error_None in A; lia]. destruct (nth_error l b) as [xb|] eqn:B'; [|apply nth_error_None in B'; lia].
    rewrite (F _ _ A) in H. rewrite (F _ _ B'). apply negb_true_iff in H. apply negb_true_iff. destruct (ok (cv_start xb)) eqn:K; [|reflexivity].
    rewrite (down _ _ (ordered_nth _ _ _ _ _ O AB A B') K) in H. discriminate H. }
  set (k := sort_search (length l) f) in *.
  assert (G : forall l k, (k <= length l)%nat -> (forall i c, (i < k)%nat -> nth_error l i = Some c -> ok (cv_start c) = true) -> (forall i c, (k <= i)%nat -> nth_error l i = Some c -> ok (cv_start c) = false) ->
    before_index l k = option_map cv_var (last_ok l)).
  { clear. intros l. induction l as [|c l IH]; intros k L A B'; [destruct k; [reflexivity|cbn in L; lia]|]. cbn [last_ok].
    destruct k as [|k].
    - assert (E : last_ok l = None).
      { destruct (last_ok l) as [x|] eqn:E; [|reflexivity]. apply last_ok_in in E as [I K]. apply In_nth_error in I as [i N]. rewrite (B' (S i) x (Nat.le_0_l _) N) in K. discriminate K. }
      rewrite E, (B' 0%nat c (Nat.le_0_l _) eq_refl). reflexivity.
    - specialize (IH k ltac:(cbn in L; lia)). assert (H : before_index l k = option_map cv_var (last_ok l)) by (apply IH; intros i x I N; [apply (A (S i) x)|apply (B' (S i) x)]; auto; lia).
      destruct k as [|k]; cbn [before_index nth_error option_map] in *.
      + destruct (last_ok l) as [x|] eqn:E; [discriminate H|]. rewrite (A 0%nat c (Nat.lt_0_succ _) eq_refl). reflexivity.
      + destruct (last_ok l) as [x|] eqn:E; [exact H|]. destruct (nth_error l k) eqn:N; [discriminate H|]. apply nth_error_None in N. cbn in L. lia. }
  apply G; [exact LE| |].
  - intros i c I N. specialize (P i I). rewrite (F _ _ N) in P. apply negb_false_iff in P. exact P.
  - intros i c I N. assert (IL : (i < length l)%nat) by (apply nth_error_Some; congruence). specialize (Q ltac:(lia)).
    destruct (nth_error l k) as [xk|] eqn:K; [|apply nth_error_None in K; lia]. rewrite (F _ _ K) in Q. apply negb_true_iff in Q.
    destruct (ok (cv_start c)) eqn:C; [|reflexivity]. rewrite (down _ _ (ordered_nth _ _ _ _ _ O I K N) C) in Q. discriminate Q.
Qed.
Lemma last_insert : forall l c, ordered l -> last_ok (insert_var l c) =
  match last_ok l with
  | Some x => if ok (cv_start c) && negb (ComparePos (cv_start c) (cv_start x) <? 0)%Z then Some c else Some x
  | None => if ok (cv_start c) then Some c else None
  end.
Proof.
  intros l c O. destruct (insert_split l c O) as (l1 & l2 & E & -> & L1 & L2). subst l. rewrite !last_ok_app. cbn [last_ok].
  destruct (last_ok l2) as [y|] eqn:Y.
  - apply last_ok_in in Y as [I K]. assert (B' := L2 y I). apply compare_lt in B'. rewrite B', andb_false_r. reflexivity.
  - destruct (last_ok l1) as [x|] eqn:X.
    + apply last_ok_in in X as [I K]. assert (B' := L1 x I). apply le_lt in B'. destruct (ComparePos (cv_start c) (cv_start x) <? 0)%Z eqn:C; [apply compare_lt in C; contradiction|].
      cbn. rewrite andb_true_r. destruct (ok (cv_start c)); reflexivity.
    + destruct (ok (cv_start c)); reflexivity.
Qed.
End Last.

(** ** Marking does not change what is found *)
Definition bare (c : context_var) : variable * position * bool := (cv_var c, cv_start c, cv_decl c).
Lemma mark_bare : forall pos name l, map bare (mark_used pos name l) = map bare l.
Proof.
  induction l as [|c l IH]; [reflexivity|]. cbn [mark_used]. destruct (_ <=? 0)%Z; [reflexivity|]. cbn [map]. f_equal; [|exact IH].
  destruct (cv_decl c && _) eqn:E; reflexivity.
Qed.
Lemma bare_ordered : forall l l', map bare l = map bare l' -> ordered l -> ordered l'.
Proof.
  induction l as [|c l IH]; intros [|c' l'] E O; try discriminate E; [exact I|]. destruct O as [H O]. cbn in E. injection E as E1 E2 E3 E4. split; [|eauto].
  intros x I'. apply (in_map bare) in I'. rewrite <- E4 in I'. apply in_map_iff in I' as (y & E' & I'). unfold bare in E'. injection E' as F1 F2 F3. rewrite <- F2, <- E2. auto.
Qed.
Lemma bare_last : forall ok l l', map bare l = map bare l' -> option_map bare (last_ok ok l) = option_map bare (last_ok ok l').
Proof.
  induction l as [|c l IH]; intros [|c' l'] E; try discriminate E; [reflexivity|]. cbn in E. injection E as E1 E2 E3 E4. specialize (IH l' E4). cbn [last_ok].
  destruct (last_ok ok l), (last_ok ok l'); try discriminate IH; [exact IH|]. rewrite E2. destruct (ok (cv_start c')); [|reflexivity]. cbn. unfold bare. rewrite E1, E2, E3. reflexivity.
Qed.

(** ** The map *)
Lemma get_set_same : forall m n l, vars_get (vars_set m n l) n = Some l.
Proof. induction m as [|[k l'] m IH]; intros n l; cbn; [rewrite str_eqb_refl; reflexivity|]. destruct (str_eqb k n) eqn:E; cbn; rewrite E; auto. Qed.
Lemma get_set_other : forall m n l x, str_eqb n x = false -> vars_get (vars_set m n l) x = vars_get m x.
Proof.
  induction m as [|[k l'] m IH]; intros n l x E; cbn; [rewrite E; reflexivity|]. destruct (str_eqb k n) eqn:K; cbn.
  - apply str_eqb_eq in K. subst k. rewrite E. reflexivity.
  - destruct (str_eqb k x); auto.
Qed.
Lemma set_keys : forall m n l, vars_get m n <> None -> map fst (vars_set m n l) = map fst m.
Proof. induction m as [|[k l'] m IH]; intros n l G; cbn in *; [congruence|]. destruct (str_eqb k n) eqn:E; cbn; [reflexivity|]. f_equal. auto. Qed.
Lemma set_new : forall m n l, vars_get m n = None -> vars_set m n l = m ++ [(n, l)].
Proof. induction m as [|[k l'] m IH]; intros n l G; cbn in *; [reflexivity|]. destruct (str_eqb k n) eqn:E; [discriminate G|]. cbn. f_equal. auto. Qed.
Lemma get_none : forall m n, vars_get m n = None <-> ~ In n (map fst m).
Proof.
  induction m as [|[k l'] m IH]; intros n; cbn; [intuition|]. destruct (str_eqb k n) eqn:E; [apply str_eqb_eq in E; subst; intuition discriminate|].
  rewrite IH. apply str_eqb_neq in E. intuition.
Qed.
Lemma get_in : forall m n l, vars_get m n = Some l -> In (n, l) m.
Proof. induction m as [|[k l'] m IH]; intros n l G; cbn in *; [discriminate G|]. destruct (str_eqb k n) eqn:E; [apply str_eqb_eq in E; injection G as ->; subst; auto|right; auto]. Qed.
Lemma in_get : forall m n l, NoDup (map fst m) -> In (n, l) m -> vars_get m n = Some l.
Proof.
  induction m as [|[k l'] m IH]; intros n l N I; [destruct I|]. cbn in *. inversion N; subst. destruct I as [E|I]; [injection E as -> ->; rewrite str_eqb_refl; reflexivity|].
  destruct (str_eqb k n) eqn:E; [|auto]. apply str_eqb_eq in E. subst k. exfalso. apply H1. apply (in_map fst) in I. exact I.
Qed.
Lemma in_set : forall m n l x y, In (x, y) (vars_set m n l) -> (x = n /\ y = l) \/ In (x, y) m.
Proof.
  induction m as [|[k l'] m IH]; intros n l x y I; cbn in *; [destruct I as [E|[]]; injection E as <- <-; auto|].
  destruct (str_eqb k n) eqn:E; [apply str_eqb_eq in E; subst k; destruct I as [E|I]; [injection E as <- <-; auto|auto]|].
  destruct I as [I|I]; [auto|]. destruct (IH _ _ _ _ I); auto.
Qed.

Record table_ok (m : var_map) : Prop := Table_ok {
  tk_keys : NoDup (map fst m);
  tk_lists : forall n l, In (n, l) m -> l <> [] /\ ordered l /\ forall c, In c l -> v_name (cv_var c) = n }.
Lemma ok_set : forall m n l, table_ok m -> l <> [] -> ordered l -> (forall c, In c l -> v_name (cv_var c) = n) -> table_ok (vars_set m n l).
Proof.
  intros m n l [K L] NE O V. constructor.
  - destruct (vars_get m n) eqn:G; [rewrite set_keys; [exact K|congruence]|]. rewrite (set_new _ _ _ G), map_app. apply get_none in G. cbn.
    rewrite <- (rev_involutive (map fst m ++ [n])), rev_app_distr. apply NoDup_rev. cbn. constructor; [rewrite <- in_rev; exact G|apply NoDup_rev; exact K].
  - intros x y I. apply in_set in I as [[-> ->]|I]; auto.
Qed.
Lemma mark_named : forall pos name n l, (forall c, In c l -> v_name (cv_var c) = n) -> forall c, In c (mark_used pos name l) -> v_name (cv_var c) = n.
Proof.
  intros pos name n l H c I. apply (in_map bare) in I. rewrite mark_bare in I. apply in_map_iff in I as (y & E & I). unfold bare in E. injection E as <- _ _. auto.
Qed.
Lemma insert_in : forall l c x, ordered l -> (In x (insert_var l c) <-> x = c \/ In x l).
Proof. intros l c x O. destruct (insert_split l c O) as (l1 & l2 & -> & -> & _ & _). rewrite !in_app_iff. cbn. intuition. Qed.
Lemma insert_nonempty : forall l c, insert_var l c <> [].
Proof. intros l c E. unfold insert_var in E. apply app_eq_nil in E as [_ E]. discriminate E. Qed.

(** what [table_add] does *)
Lemma add_eq : forall m v start d, table_ok m ->
  exists l, table_add m v start d = vars_set m (v_name v) l /\
  match vars_get m (v_name v) with
  | Some l0 => l = insert_var (if d then l0 else mark_used (r_start (v_range v)) (v_name v) l0) (Ctx v start d false)
  | None => l = [Ctx v start d false]
  end.
Proof.
  intros m v start d K. unfold table_add. destruct d.
  - destruct (vars_get m (v_name v)); eauto.
  - destruct (vars_get m (v_name v)) as [l0|] eqn:G; [|rewrite G; eauto]. rewrite get_set_same. eexists. split; [|reflexivity].
    generalize (insert_var (mark_used (r_start (v_range v)) (v_name v) l0) (Ctx v start false false)) (mark_used (r_start (v_range v)) (v_name v) l0). clear.
    intros a b. induction m as [|[k l'] m IH]; cbn; [rewrite str_eqb_refl; reflexivity|]. destruct (str_eqb k (v_name v)) eqn:E; cbn; rewrite E; [reflexivity|]. f_equal. exact IH.
Qed.
Lemma add_ok : forall m v start d, table_ok m -> table_ok (table_add m v start d).
Proof.
  intros m v start d K. destruct (add_eq m v start d K) as (l & -> & H). destruct (vars_get m (v_name v)) as [l0|] eqn:G.
  - subst l. destruct (tk_lists _ K _ _ (get_in _ _ _ G)) as (NE & O & V).
    assert (O' : ordered (if d then l0 else mark_used (r_start (v_range v)) (v_name v) l0)) by (destruct d; [exact O|eapply bare_ordered; [symmetry; apply mark_bare|exact O]]).
    apply ok_set; [exact K|apply insert_nonempty|apply insert_ordered; exact O'|]. intros c I. apply insert_in in I as [->|I]; [reflexivity| |exact O'].
    destruct d; [auto|eapply mark_named; eauto].
  - subst l. apply ok_set; [exact K|discriminate|cbn; intuition|]. intros c [<-|[]]. reflexivity.
Qed.
Lemma empty_ok : table_ok [].
Proof. constructor; [constructor|intros n l []]. Qed.
Lemma of_snoc : forall occs o, table_of (occs ++ [o]) = table_add (table_of occs) (oc_var o) (oc_start o) (oc_decl o).
Proof. intros. unfold table_of. rewrite fold_left_app. reflexivity. Qed.
Lemma of_ok : forall occs, table_ok (table_of occs).
Proof. intros occs. induction occs as [|o occs IH] using rev_ind; [apply empty_ok|]. rewrite of_snoc. apply add_ok. exact IH. Qed.

(** ** What is found *)
Definition look (m : var_map) (name : gostr) (ok : position -> bool) : option (variable * position * bool) :=
  match vars_get m name with Some l => option_map bare (last_ok ok l) | None => None end.
Lemma look_add : forall ok m v start d name, table_ok m ->
  look (table_add m v start d) name ok =
  if str_eqb (v_name v) name then
    match look m name ok with
    | Some x => if ok start && negb (ComparePos start (snd (fst x)) <? 0)%Z then Some (v, start, d) else Some x
    | None => if ok start then Some (v, start, d) else None
    end
  else look m name ok.
Proof.
  intros ok m v start d name K. destruct (add_eq m v start d K) as (l & -> & H). unfold look. destruct (str_eqb (v_name v) name) eqn:E; [|rewrite get_set_other; auto].
  apply str_eqb_eq in E. subst name. rewrite get_set_same. destruct (vars_get m (v_name v)) as [l0|] eqn:G.
  - subst l. destruct (tk_lists _ K _ _ (get_in _ _ _ G)) as (NE & O & V).
    set (l1 := if d then l0 else mark_used (r_start (v_range v)) (v_name v) l0). assert (B' : map bare l1 = map bare l0) by (unfold l1; destruct d; [reflexivity|apply mark_bare]).
    assert (O' : ordered l1) by (eapply bare_ordered; [symmetry; exact B'|exact O]). rewrite last_insert by exact O'. cbn [cv_start].
    assert (L := bare_last ok _ _ B'). destruct (last_ok ok l1) as [x|], (last_ok ok l0) as [y|]; try discriminate L.
    + cbn in L. injection L as E1 E2 E3. cbn. unfold bare. rewrite <- E2. destruct (ok start && _); cbn; [reflexivity|]. rewrite E1, E2, E3. reflexivity.
    + cbn. destruct (ok start); reflexivity.
  - subst l. cbn. destruct (ok start); reflexivity.
Qed.
Lemma look_latest : forall ok occs name,
  match look (table_of occs) name ok with
  | Some (v, s, d) => latest occs name (fun p => ok p = true) (Occ v s d)
  | None => forall o, In o occs -> oc_name o = name -> ok (oc_start o) = false
  end.
Proof.
  intros ok occs name. induction occs as [|o occs IH] using rev_ind; [intros o []|]. rewrite of_snoc, look_add by apply of_ok.
  destruct o as [v s d]. cbn [oc_var oc_start oc_decl].
  assert (KEEP : forall x, latest occs name (fun p => ok p = true) x -> (v_name v = name -> ok s = true -> before s (oc_start x)) -> latest (occs ++ [Occ v s d]) name (fun p => ok p = true) x).
  { intros x (a & b & -> & N & OK & A & B') H. exists a, (b ++ [Occ v s d]). split; [rewrite <- app_assoc; reflexivity|]. repeat split; auto. intros o' I N' OK'. apply in_app_iff in I as [I|[<-|[]]]; [auto|]. apply H; assumption. }
  destruct (str_eqb (v_name v) name) eqn:E.
  - apply str_eqb_eq in E. destruct (look (table_of occs) name ok) as [[[v' s'] d']|] eqn:L; cbn [fst snd].
    + destruct (ok s && negb (ComparePos s s' <? 0)%Z) eqn:C.
      * apply andb_true_iff in C as [OK C]. apply negb_true_iff in C. exists occs, []. repeat split; auto; [|intros o' []]. intros o' I N' OK'.
        destruct IH as (a & b & -> & N & OK1 & A & B'). cbn [oc_start] in *. assert (LE : le s' s) by (apply le_lt; intros X; apply compare_lt in X; congruence).
        apply in_app_iff in I as [I|[<-|I]]; [eapply le_trans; [apply A|]; auto|exact LE|eapply le_trans; [left; apply B'|]; auto].
      * apply KEEP; [exact IH|]. intros _ OK. rewrite OK in C. cbn in C. apply negb_false_iff in C. apply compare_lt. exact C.
    + destruct (ok s) eqn:OK.
      * exists occs, []. repeat split; auto; [|intros o' []]. intros o' I N' OK'. rewrite (IH _ I N') in OK'. discriminate OK'.
      * intros o' I N'. apply in_app_iff in I as [I|[<-|[]]]; [auto|exact OK].
  - apply str_eqb_neq in E. destruct (look (table_of occs) name ok) as [[[v' s'] d']|] eqn:L.
    + apply KEEP; [exact IH|]. intros X. contradiction.
    + intros o' I N'. apply in_app_iff in I as [I|[<-|[]]]; [auto|contradiction].
Qed.
Lemma before_irrefl : forall a, ~ before a a.
Proof. intros a. unfold before. lia. Qed.
Lemma latest_unique : forall occs name ok o o', latest occs name ok o -> latest occs name ok o' -> o = o'.
Proof.
  intros occs name ok o o' (a & b & E & N & OK & A & B') (a' & b' & E' & N' & OK' & A' & B''). subst occs.
  assert (H : forall (a a' : list occurrence) o o' b b', a ++ o :: b = a' ++ o' :: b' -> (In o a' /\ In o' b) \/ o = o' \/ (In o' a /\ In o b')).
  { clear. induction a as [|x a IH]; intros [|x' a'] o o' b b' E; cbn in E.
    - injection E as -> _. auto.
    - injection E as -> ->. left. split; [left; reflexivity|apply in_elt].
    - injection E as -> <-. right; right. split; [left; reflexivity|apply in_elt].
    - injection E as -> E. destruct (IH _ _ _ _ _ E) as [[? ?]|[?|[? ?]]]; [left|auto|right; right]; split; auto; right; assumption. }
  destruct (H _ _ _ _ _ _ E') as [[I J]|[X|[I J]]]; [|exact X|]; exfalso.
  - assert (X := B' _ J N' OK'). assert (Y := A' _ I N OK). apply le_lt in Y. contradiction.
  - assert (X := B'' _ J N OK). assert (Y := A _ I N' OK'). apply le_lt in Y. contradiction.
Qed.
Lemma get_look : forall m name pos, table_ok m ->
  table_get m name pos = option_map (fun x => fst (fst x)) (look m name (fun s => negb (ComparePos pos s <? 0)%Z)).
Proof.
  intros m name pos K. unfold table_get, look. destruct (vars_get m name) as [l|] eqn:G; [|reflexivity]. destruct (tk_lists _ K _ _ (get_in _ _ _ G)) as (NE & O & V).
  rewrite (search_last (fun s => negb (ComparePos pos s <? 0)%Z)); [destruct (last_ok _ l); reflexivity| |exact O|].
  - intros a b L H. apply negb_true_iff in H. apply negb_true_iff. destruct (ComparePos pos a <? 0)%Z eqn:E; [|reflexivity]. apply compare_lt in E. rewrite <- H. symmetry. apply compare_lt.
    destruct (before_dec pos b) as [X|X]; [exact X|]. exfalso. exact (proj1 (le_lt _ _) (le_trans _ _ _ L X) E).
  - intros i c N. rewrite N, negb_involutive. reflexivity.
Qed.
Lemma variables_look : forall m pos v, table_ok m ->
  In v (GetVariables m pos) <-> exists name s d, look m name (fun s => negb (0 <=? ComparePos s pos)%Z) = Some (v, s, d).
Proof.
  intros m pos v K. unfold GetVariables. rewrite in_flat_map.
  assert (S' : forall n l, In (n, l) m -> before_index l (sort_search (length l) (fun i => match nth_error l i with Some c => (0 <=? ComparePos (cv_start c) pos)%Z | None => true end))
     = option_map cv_var (last_ok (fun s => negb (0 <=? ComparePos s pos)%Z) l)).
  { intros n l I. destruct (tk_lists _ K _ _ I) as (NE & O & V). apply search_last; [|exact O|].
    - intros a b L H. apply negb_true_iff in H. apply negb_true_iff. destruct (0 <=? ComparePos a pos)%Z eqn:E; [|reflexivity]. apply compare_ge in E. rewrite <- H. symmetry. apply compare_ge. eapply le_trans; eauto.
    - intros i c N. rewrite N, negb_involutive. reflexivity. }
  split.
  - intros ([n l] & I & J). cbn [snd] in J. destruct l as [|c0 l0]; [destruct J|]. set (l := c0 :: l0) in *. rewrite (S' _ _ I) in J.
    destruct (last_ok _ l) as [c|] eqn:L; [|destruct J]. destruct J as [<-|[]]. exists n, (cv_start c), (cv_decl c). unfold look. rewrite (in_get _ _ _ (tk_keys _ K) I), L. reflexivity.
  - intros (n & s & d & L). unfold look in L. destruct (vars_get m n) as [l|] eqn:G; [|discriminate L]. apply get_in in G. exists (n, l). split; [exact G|]. cbn [snd].
    destruct l as [|c0 l0]; [discriminate L|]. set (l := c0 :: l0) in *. rewrite (S' _ _ G). destruct (last_ok _ l) as [c|]; [|discriminate L]. cbn in L. injection L as <- _ _. left. reflexivity.
Qed.
