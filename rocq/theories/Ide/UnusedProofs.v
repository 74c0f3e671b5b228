(** Unused variables, for a table and for the tables of a document. *)
From Coq Require Import String.
From Coq Require Import List Bool ZArith Lia Permutation.
From Verif Require Import Base.Bytes Base.BytesProofs Base.Protocol Base.SortSearch Text.PositionModel Text.PositionSpec
  Ide.VariableModel Ide.VariableSpec Ide.VariableProofs.
Import ListNotations.
Open Scope list_scope.

(** ** One table *)
Definition unused_of (l : list context_var) : list variable := map cv_var (List.filter (fun c => cv_decl c && negb (cv_used c)) l).
Lemma unused_app : forall a b, unused_of (a ++ b) = unused_of a ++ unused_of b.
Proof. intros. unfold unused_of. rewrite filter_app, map_app. reflexivity. Qed.
Lemma unused_in : forall v l, In v (unused_of l) -> exists c, In c l /\ cv_var c = v.
Proof. intros v l I. apply in_map_iff in I as (c & E & I). apply filter_In in I as [I _]. eauto. Qed.
Lemma mark_all : forall pos name l, (forall c, In c l -> before (r_start (v_range (cv_var c))) pos /\ v_name (cv_var c) = name) -> unused_of (mark_used pos name l) = [].
Proof.
  intros pos name l. induction l as [|c l IH]; intros H; [reflexivity|]. cbn [mark_used]. destruct (H c (or_introl eq_refl)) as [B' N].
  destruct (ComparePos pos (r_start (v_range (cv_var c))) <=? 0)%Z eqn:E; [apply compare_le in E; apply le_lt in E; contradiction|].
  rewrite N, str_eqb_refl, andb_true_r. unfold unused_of in *. cbn [List.filter].
  destruct (cv_decl c) eqn:D; cbn [cv_decl cv_used andb negb]; [|rewrite D; cbn [andb]]; apply IH; intros x I; apply H; right; exact I.
Qed.
Lemma unused_insert : forall l c, ordered l -> Permutation (unused_of (insert_var l c)) (unused_of [c] ++ unused_of l).
Proof.
  intros l c O. destruct (insert_split l c O) as (l1 & l2 & -> & -> & _). change (c :: l2) with ([c] ++ l2). rewrite !unused_app.
  rewrite !app_assoc. apply Permutation_app_tail. apply Permutation_app_comm.
Qed.
Definition other_name (n : gostr) (v : variable) : bool := negb (str_eqb (v_name v) n).
Lemma filter_all : forall A (f : A -> bool) l, (forall x, In x l -> f x = true) -> List.filter f l = l.
Proof. induction l as [|x l IH]; intros H; [reflexivity|]. cbn. rewrite (H x (or_introl eq_refl)). f_equal. apply IH. intros; apply H; right; assumption. Qed.
Lemma filter_none : forall A (f : A -> bool) l, (forall x, In x l -> f x = false) -> List.filter f l = [].
Proof. induction l as [|x l IH]; intros H; [reflexivity|]. cbn. rewrite (H x (or_introl eq_refl)). apply IH. intros; apply H; right; assumption. Qed.
Lemma unused_cons : forall n l m, table_unused ((n, l) :: m) = unused_of l ++ table_unused m.
Proof. reflexivity. Qed.
Lemma table_unused_app : forall a b, table_unused (a ++ b) = table_unused a ++ table_unused b.
Proof. intros. apply flat_map_app. Qed.
Lemma ok_tail : forall e m, table_ok (e :: m) -> table_ok m.
Proof. intros e m [K L]. inversion K; subst. constructor; [assumption|]. intros n l I. apply L. right. exact I. Qed.
Lemma unused_named : forall m, table_ok m -> forall v, In v (table_unused m) -> In (v_name v) (map fst m).
Proof.
  intros m K v I. apply in_flat_map in I as ([n l] & J & I). apply unused_in in I as (c & C & <-). destruct (tk_lists _ K _ _ J) as (_ & _ & V). rewrite (V _ C). apply (in_map fst) in J. exact J.
Qed.
Lemma unused_set_more : forall m n l l0 v, vars_get m n = Some l0 -> Permutation (unused_of l) (v :: unused_of l0) -> Permutation (table_unused (vars_set m n l)) (v :: table_unused m).
Proof.
  induction m as [|[k l'] m IH]; intros n l l0 v G P; cbn [vars_get vars_set] in *; [discriminate G|]. destruct (str_eqb k n) eqn:E.
  - injection G as ->. rewrite !unused_cons. rewrite P. reflexivity.
  - rewrite !unused_cons. rewrite (IH _ _ _ _ G P). symmetry. apply Permutation_middle.
Qed.
Lemma unused_set_none : forall m n l, table_ok m -> vars_get m n <> None -> unused_of l = [] -> table_unused (vars_set m n l) = List.filter (other_name n) (table_unused m).
Proof.
  induction m as [|[k l'] m IH]; intros n l K G P; cbn [vars_get vars_set] in *; [congruence|]. destruct (tk_lists _ K k l' (or_introl eq_refl)) as (_ & _ & V).
  destruct (str_eqb k n) eqn:E; rewrite !unused_cons, filter_app.
  - apply str_eqb_eq in E. subst k. rewrite P. rewrite (filter_none _ (other_name n) (unused_of l')).
    + cbn. symmetry. apply filter_all. intros v I. assert (I' := unused_named _ (ok_tail _ _ K) v I). unfold other_name. apply negb_true_iff, str_eqb_neq. intros X. rewrite X in I'.
      destruct K as [K _]. inversion K; contradiction.
    + intros v I. apply unused_in in I as (c & C & <-). unfold other_name. rewrite (V _ C), str_eqb_refl. reflexivity.
  - rewrite IH by (auto; eapply ok_tail; eauto). f_equal. symmetry. apply filter_all. intros v I. apply unused_in in I as (c & C & <-). unfold other_name. rewrite (V _ C), E. reflexivity.
Qed.

Lemma unread_snoc : forall i occs o, unread (map (pair i) (occs ++ [o])) =
  if oc_decl o then unread (map (pair i) occs) ++ [oc_var o] else List.filter (other_name (oc_name o)) (unread (map (pair i) occs)).
Proof.
  intros i occs o. induction occs as [|x occs IH]; cbn [map app unread].
  - destruct (oc_decl o); reflexivity.
  - rewrite IH, map_app, existsb_app. cbn [map existsb]. unfold same_use at 2. cbn [fst snd]. rewrite Nat.eqb_refl. cbn [andb]. rewrite orb_false_r.
    destruct (oc_decl o); cbn [negb andb]; rewrite ?andb_false_r, ?orb_false_r, ?andb_true_r.
    + destruct (oc_decl x && _); reflexivity.
    + destruct (oc_decl x) eqn:D; cbn [andb]; [|reflexivity]. destruct (existsb (same_use i (oc_name x)) (map (pair i) occs)); cbn [orb negb]; [reflexivity|].
      cbn [List.filter]. replace (other_name (oc_name o) (oc_var x)) with (negb (str_eqb (oc_name o) (oc_name x))) by (rewrite str_eqb_sym; reflexivity).
      destruct (str_eqb (oc_name o) (oc_name x)); reflexivity.
Qed.
Lemma in_table : forall occs n l c, In (n, l) (table_of occs) -> In c l -> exists o, In o occs /\ oc_var o = cv_var c /\ oc_name o = n.
Proof.
  intros occs. induction occs as [|o occs IH] using rev_ind; intros n l c I J; [destruct I|]. rewrite of_snoc in I.
  destruct (add_eq (table_of occs) (oc_var o) (oc_start o) (oc_decl o) (of_ok occs)) as (l1 & E & H). rewrite E in I.
  assert (OLD : forall n l c, In (n, l) (table_of occs) -> In c l -> exists o', In o' (occs ++ [o]) /\ oc_var o' = cv_var c /\ oc_name o' = n).
  { intros n' l' c' I' J'. destruct (IH _ _ _ I' J') as (o' & A & B'). exists o'. split; [apply in_app_iff; auto|exact B']. }
  apply in_set in I as [[-> ->]|I]; [|eauto]. destruct (vars_get (table_of occs) (v_name (oc_var o))) as [l0|] eqn:G.
  - subst l1. apply get_in in G. destruct (tk_lists _ (of_ok occs) _ _ G) as (_ & O & _).
    set (l1 := if oc_decl o then l0 else mark_used (r_start (v_range (oc_var o))) (v_name (oc_var o)) l0) in *. assert (B' : map bare l1 = map bare l0) by (unfold l1; destruct (oc_decl o); [reflexivity|apply mark_bare]).
    apply insert_in in J; [|eapply bare_ordered; [symmetry; exact B'|exact O]]. destruct J as [->|J].
    + exists o. split; [apply in_app_iff; right; left; reflexivity|]. split; reflexivity.
    + apply (in_map bare) in J. rewrite B' in J. apply in_map_iff in J as (y & F & J). unfold bare in F. injection F as F1 F2 F3. rewrite <- F1. eapply OLD; eauto.
  - subst l1. destruct J as [<-|[]]. exists o. split; [apply in_app_iff; right; left; reflexivity|]. split; reflexivity.
Qed.
Lemma in_order_app : forall a b, in_order (a ++ b) -> in_order a.
Proof. intros a b H a' s u b' E D o I N. subst a. eapply (H a' s u (b' ++ b)); eauto. rewrite <- app_assoc. reflexivity. Qed.
Lemma table_unread : forall i occs, in_order (map (pair i) occs) -> Permutation (table_unused (table_of occs)) (unread (map (pair i) occs)).
Proof.
  intros i occs. induction occs as [|o occs IH] using rev_ind; intros H; [reflexivity|]. rewrite map_app in H. specialize (IH (in_order_app _ _ H)).
  rewrite unread_snoc, of_snoc. destruct (add_eq (table_of occs) (oc_var o) (oc_start o) (oc_decl o) (of_ok occs)) as (l1 & -> & E).
  assert (K := of_ok occs). destruct (vars_get (table_of occs) (v_name (oc_var o))) as [l0|] eqn:G.
  - subst l1. destruct (tk_lists _ K _ _ (get_in _ _ _ G)) as (_ & O & V). destruct (oc_decl o) eqn:D.
    + rewrite (unused_set_more _ _ _ _ (oc_var o) G); [|rewrite unused_insert by exact O; reflexivity]. rewrite <- IH. apply Permutation_cons_append.
    + rewrite unused_set_none; [|exact K|congruence|].
      * fold (oc_name o). clear -IH. induction IH; cbn; try (destruct (other_name (oc_name o) x)); try (destruct (other_name (oc_name o) y)); auto; try constructor; auto. etransitivity; eauto.
      * apply Permutation_nil. rewrite unused_insert by (eapply bare_ordered; [symmetry; apply mark_bare|exact O]). cbn [unused_of]. rewrite mark_all; [reflexivity|].
        intros c C. split; [|auto]. destruct (in_table _ _ _ _ (get_in _ _ _ G) C) as (o' & I & <- & N). apply (H (map (pair i) occs) i o [] eq_refl D o'); [apply in_map; exact I|exact N].
  - subst l1. rewrite (set_new _ _ _ G), table_unused_app. destruct (oc_decl o) eqn:D.
    + rewrite IH. reflexivity.
    + cbn. rewrite app_nil_r. rewrite <- (filter_all _ (other_name (oc_name o)) (table_unused (table_of occs))).
      * clear -IH. induction IH; cbn; try (destruct (other_name (oc_name o) x)); try (destruct (other_name (oc_name o) y)); auto; try constructor; auto. etransitivity; eauto.
      * intros v I. apply unused_named in I; [|exact K]. unfold other_name. apply negb_true_iff, str_eqb_neq. intros X. rewrite X in I. apply get_none in G. contradiction.
Qed.

(** ** The tables of a document *)
Definition sel (i : nat) (xs : list (nat * occurrence)) : list occurrence := map snd (List.filter (fun x => Nat.eqb (fst x) i) xs).
Lemma sel_app : forall i a b, sel i (a ++ b) = sel i a ++ sel i b.
Proof. intros. unfold sel. rewrite filter_app, map_app. reflexivity. Qed.
Lemma sel_one : forall i s o, sel i [(s, o)] = if Nat.eqb s i then [o] else [].
Proof. intros. unfold sel. cbn. destruct (Nat.eqb s i); reflexivity. Qed.
Lemma sel_pair : forall i xs, map (pair i) (sel i xs) = List.filter (fun x => Nat.eqb (fst x) i) xs.
Proof.
  intros i xs. unfold sel. induction xs as [|[s o] xs IH]; [reflexivity|]. cbn. destruct (Nat.eqb s i) eqn:E; cbn; [|exact IH]. apply Nat.eqb_eq in E. subst. f_equal. exact IH.
Qed.

Lemma set_length : forall ts i f, length (set_table ts i f) = length ts.
Proof.
  intros ts i f. unfold set_table. destruct (nth_error ts i) as [t|] eqn:N; [|reflexivity]. assert (i < length ts)%nat by (apply nth_error_Some; congruence).
  rewrite app_length. cbn [length]. rewrite firstn_length, skipn_length. lia.
Qed.
Lemma set_nth : forall ts i f j, nth_error (set_table ts i f) j = if Nat.eqb i j then option_map f (nth_error ts j) else nth_error ts j.
Proof.
  intros ts i f j. unfold set_table. destruct (nth_error ts i) as [t|] eqn:N.
  - assert (L : (i < length ts)%nat) by (apply nth_error_Some; congruence). assert (FL : length (firstn i ts) = i) by (rewrite firstn_length; lia).
    destruct (Nat.eqb_spec i j) as [<-|NE].
    + rewrite nth_error_app2 by lia. rewrite FL, Nat.sub_diag, N. reflexivity.
    + destruct (Nat.lt_ge_cases j i) as [J|J].
      * rewrite nth_error_app1 by lia. apply nth_firstn. exact J.
      * rewrite nth_error_app2 by lia. rewrite FL. destruct (j - i)%nat as [|k] eqn:K; [lia|]. cbn [nth_error]. rewrite nth_skipn. f_equal. lia.
  - destruct (Nat.eqb_spec i j) as [<-|NE]; [rewrite N; reflexivity|reflexivity].
Qed.

Definition children (ts : list var_table) (i : nat) : list nat := match nth_error ts i with Some t => vt_children t | None => [] end.
Record tree (ts : list var_table) : Prop := Tree {
  tr_range : forall i j, In j (children ts i) -> (i < j < length ts)%nat;
  tr_nodup : forall i, NoDup (children ts i);
  tr_one : forall i i' j, In j (children ts i) -> In j (children ts i') -> i = i';
  tr_all : forall j, (0 < j < length ts)%nat -> exists i, In j (children ts i) }.
Record doc_ok (d : var_doc) (next : nat) (stack : list nat) (done : list (nat * occurrence)) : Prop := Doc_ok {
  dk_next : length (vd_tables d) = next;
  dk_stack : vd_stack d = rev stack;
  dk_open : forall s, In s stack -> (s < next)%nat;
  dk_vars : forall i t, nth_error (vd_tables d) i = Some t -> vt_vars t = table_of (sel i done);
  dk_done : forall s o, In (s, o) done -> (s < next)%nat;
  dk_tree : tree (vd_tables d) }.

Lemma children_set_vars : forall ts i g j, children (set_table ts i (fun t => Table (vt_range t) (g t) (vt_children t))) j = children ts j.
Proof. intros. unfold children. rewrite set_nth. destruct (Nat.eqb i j); [|reflexivity]. destruct (nth_error ts j); reflexivity. Qed.
Lemma tree_ext : forall ts ts', length ts = length ts' -> (forall i, children ts' i = children ts i) -> tree ts -> tree ts'.
Proof.
  intros ts ts' L C [A B' D E]. constructor.
  - intros i j. rewrite C, <- L. apply A.
  - intros i. rewrite C. apply B'.
  - intros i i' j. rewrite !C. apply D.
  - intros j. rewrite <- L. intros H. destruct (E j H) as (i & I). exists i. rewrite C. exact I.
Qed.
Lemma add_doc_ok : forall d next stack done i v start decl, doc_ok d next stack done -> (i < next)%nat -> doc_ok (add_to d i v start decl) next stack (done ++ [(i, Occ v start decl)]).
Proof.
  intros d next stack done i v start decl [A B' C D E T] L. unfold add_to. constructor; cbn [vd_tables vd_stack]; auto.
  - rewrite set_length. exact A.
  - intros j t N. rewrite set_nth in N. rewrite sel_app, sel_one. destruct (Nat.eqb i j) eqn:IJ.
    + destruct (nth_error (vd_tables d) j) as [t0|] eqn:N0; [|discriminate N]. injection N as <-. cbn [vt_vars]. rewrite of_snoc, (D _ _ N0). reflexivity.
    + rewrite app_nil_r. auto.
  - intros s o I. apply in_app_iff in I as [I|[I|[]]]; [eauto|]. injection I as <- <-. exact L.
  - eapply tree_ext; [symmetry; apply set_length| |exact T]. intros j. apply children_set_vars.
Qed.
Lemma push_ok : forall d next stack done p r, doc_ok d next (p :: stack) done -> doc_ok (push_table d r) (S next) (next :: p :: stack) done.
Proof.
  intros d next stack done p r [A B' C D E T]. unfold push_table, current. rewrite B', rev_involutive, A.
  assert (P : (p < next)%nat) by (apply C; left; reflexivity). set (g := fun t => Table (vt_range t) (vt_vars t) (vt_children t ++ [next])).
  set (ts := set_table (vd_tables d) p g). assert (L : length ts = next) by (unfold ts; rewrite set_length; exact A).
  assert (CH : forall i, children (ts ++ [Table r [] []]) i = if Nat.eqb p i then children (vd_tables d) i ++ [next] else children (vd_tables d) i).
  { intros i. unfold children. destruct (Nat.lt_ge_cases i next) as [X|X].
    - rewrite nth_error_app1 by lia. unfold ts. rewrite set_nth. destruct (nth_error (vd_tables d) i) eqn:N; [|apply nth_error_None in N; lia]. destruct (Nat.eqb p i); reflexivity.
    - rewrite nth_error_app2 by lia. destruct (Nat.eqb_spec p i); [lia|]. rewrite (proj2 (nth_error_None (vd_tables d) i)) by lia. rewrite L. destruct (i - next)%nat as [|k]; [reflexivity|]. destruct k; reflexivity. }
  destruct T as [T1 T2 T3 T4]. constructor; cbn [vd_tables vd_stack].
  - rewrite app_length, L. cbn. lia.
  - cbn. reflexivity.
  - intros s [<-|I]; [lia|]. specialize (C s I). lia.
  - intros i t N. destruct (Nat.lt_ge_cases i next) as [X|X].
    + rewrite nth_error_app1 in N by lia. unfold ts in N. rewrite set_nth in N. destruct (Nat.eqb p i); [|auto]. destruct (nth_error (vd_tables d) i) eqn:N0; [|discriminate N]. injection N as <-. cbn. eauto.
    + rewrite nth_error_app2 in N by lia. rewrite L in N. destruct (i - next)%nat as [|k] eqn:K; [|destruct k; discriminate N]. injection N as <-. cbn [vt_vars]. assert (i = next) by lia. subst i.
      unfold sel. rewrite filter_none; [reflexivity|]. intros [s o] I. apply E in I. cbn. apply Nat.eqb_neq. lia.
  - intros s o I. apply E in I. lia.
  - constructor.
    + intros i j I. rewrite CH in I. rewrite app_length, L. cbn. destruct (Nat.eqb_spec p i) as [<-|NE].
      * apply in_app_iff in I as [I|[<-|[]]]; [apply T1 in I; lia|lia].
      * apply T1 in I. lia.
    + intros i. rewrite CH. destruct (Nat.eqb p i); [|apply T2]. rewrite <- (rev_involutive (children (vd_tables d) i ++ [next])), rev_app_distr. apply NoDup_rev. cbn. constructor.
      * rewrite <- in_rev. intros I. apply T1 in I. lia.
      * apply NoDup_rev. apply T2.
    + intros i i' j. rewrite !CH. intros I I'.
      assert (Q : forall i, In j (if Nat.eqb p i then children (vd_tables d) i ++ [next] else children (vd_tables d) i) -> In j (children (vd_tables d) i) \/ (i = p /\ j = next)).
      { intros x H. destruct (Nat.eqb_spec p x) as [E1|NE]; [|auto]. apply in_app_iff in H as [H|[E2|[]]]; auto. }
      destruct (Q _ I) as [X|[-> ->]], (Q _ I') as [Y|[-> Z]]; eauto; [subst j; apply T1 in X; lia|apply T1 in Y; lia].
    + intros j J. rewrite app_length, L in J. cbn in J. destruct (Nat.eq_dec j next) as [->|NE].
      * exists p. rewrite CH, Nat.eqb_refl. apply in_app_iff. right. left. reflexivity.
      * destruct (T4 j ltac:(lia)) as (i & I). exists i. rewrite CH. destruct (Nat.eqb p i); [apply in_app_iff; auto|exact I].
Qed.
Lemma root_ok : forall r, doc_ok (push_table (VarDoc [] []) r) 1 [0%nat] [].
Proof.
  intros r. unfold push_table, current. cbn. constructor; cbn; auto.
  - intros s [<-|[]]. lia.
  - intros i t N. destruct i as [|i]; [injection N as <-; reflexivity|destruct i; discriminate N].
  - intros s o [].
  - assert (C : forall i, children [Table r [] []] i = []) by (intros [|[|i]]; reflexivity). constructor; intros; rewrite ?C in *; cbn in *; try contradiction; try constructor; lia.
Qed.
Lemma load_ok : forall ops d next stack done top, doc_ok d next (top :: stack) done -> balanced (length stack) ops -> last (top :: stack) 0%nat = 0%nat ->
  exists next', doc_ok (fold_left var_step ops d) next' [0%nat] (done ++ scoped next (top :: stack) ops).
Proof.
  induction ops as [|op ops IH]; intros d next stack done top K B' L; cbn [fold_left scoped balanced] in *.
  - destruct stack; [|discriminate B']. cbn in L. subst top. rewrite app_nil_r. eauto.
  - destruct op as [r| |v start decl|v]; cbn [var_step].
    + apply (IH _ _ _ _ _ (push_ok _ _ _ _ _ r K)); [exact B'|]. exact L.
    + destruct stack as [|s stack]; [destruct B'|]. cbn [tl length] in *. apply IH; [|exact B'|exact L].
      destruct K as [A B2 C D E T]. constructor; cbn [pop_table vd_tables vd_stack]; auto; [|intros x I; apply C; right; exact I]. rewrite B2. cbn [rev]. apply removelast_last.
    + unfold current. rewrite (dk_stack _ _ _ _ K), rev_involutive. change ((top, Occ v start decl) :: scoped next (top :: stack) ops) with ([(top, Occ v start decl)] ++ scoped next (top :: stack) ops). rewrite app_assoc.
      apply IH; [|exact B'|exact L]. apply add_doc_ok; [exact K|]. apply (dk_open _ _ _ _ K). left. reflexivity.
    + rewrite (dk_stack _ _ _ _ K), rev_involutive. destruct stack as [|s stack]; [apply IH; assumption|].
      set (x := (top, Occ v (r_end (v_range v)) true)). set (y := (s, Occ v (r_end (v_range v)) false)).
      replace (done ++ x :: y :: scoped next (top :: s :: stack) ops) with (((done ++ [x]) ++ [y]) ++ scoped next (top :: s :: stack) ops) by (rewrite <- !app_assoc; reflexivity).
      apply IH; [|exact B'|exact L]. apply add_doc_ok; [apply add_doc_ok; [exact K|]|]; apply (dk_open _ _ _ _ K); [left|right; left]; reflexivity.
Qed.

(** ** The queue visits every table once *)
Lemma nodup_children : forall ts, tree ts -> forall p, NoDup p -> NoDup (flat_map (children ts) p).
Proof.
  intros ts T p N. induction N as [|i p NI N IH]; [constructor|]. cbn. assert (H : forall a b : list nat, NoDup a -> NoDup b -> (forall x, In x a -> In x b -> False) -> NoDup (a ++ b)).
  { clear. induction a as [|x a IH]; intros b A B' D; [exact B'|]. inversion A; subst. cbn. constructor; [|apply IH; auto; intros y Y1 Y2; apply (D y); [right; exact Y1|exact Y2]].
    rewrite in_app_iff. intros [X|X]; [contradiction|]. apply (D x); [left; reflexivity|exact X]. }
  apply H; [apply (tr_nodup _ T)|exact IH|]. intros x X Y. apply in_flat_map in Y as (i' & I & Y). rewrite (tr_one _ T _ _ _ X Y) in NI. contradiction.
Qed.
Lemma loop_all : forall ts, tree ts -> (0 < length ts)%nat -> forall fuel p queue,
  NoDup p -> (forall i, In i p -> (i < length ts)%nat) -> (fuel + length p = length ts)%nat -> Permutation (p ++ queue) (0%nat :: flat_map (children ts) p) ->
  exists q, unused_loop fuel ts queue = flat_map (fun i => match nth_error ts i with Some t => table_unused (vt_vars t) | None => [] end) q /\ Permutation (p ++ q) (seq 0 (length ts)).
Proof.
  intros ts T POS. set (n := length ts) in *.
  assert (FULL : forall p, NoDup p -> (forall i, In i p -> (i < n)%nat) -> (forall i, (i < n)%nat -> In i p) -> Permutation p (seq 0 n)).
  { intros p N A B'. apply NoDup_Permutation; [exact N|apply seq_NoDup|]. intros i. rewrite in_seq. split; [intros I; split; [lia|apply A in I; lia]|intros I; apply B'; lia]. }
  induction fuel as [|fuel IH]; intros p queue N R L P; cbn [unused_loop].
  - exists []. split; [reflexivity|]. rewrite app_nil_r. apply FULL; auto. intros i I.
    assert (S' : incl (seq 0 n) p).
    { apply (NoDup_length_incl N); [rewrite seq_length; cbn in L; lia|]. intros x X. apply in_seq. specialize (R x X). lia. }
    apply S'. apply in_seq. lia.
  - assert (ND : NoDup (p ++ queue)).
    { eapply Permutation_NoDup; [symmetry; exact P|]. constructor; [|apply nodup_children; assumption]. intros X. apply in_flat_map in X as (i & _ & X). apply (tr_range _ T) in X. lia. }
    destruct queue as [|i queue].
    + exists []. split; [reflexivity|]. rewrite app_nil_r in *. apply FULL; auto.
      intros i. induction i as [i IHi] using lt_wf_ind. intros I. apply (Permutation_in _ (Permutation_sym P)). destruct i as [|i]; [left; reflexivity|right].
      destruct (tr_all _ T (S i)) as (j & J); [unfold n in I; lia|]. apply in_flat_map. exists j. split; [|exact J]. apply IHi; [|apply (tr_range _ T) in J; unfold n; lia]. apply (tr_range _ T) in J. lia.
    + assert (I : (i < n)%nat).
      { assert (X : In i (0%nat :: flat_map (children ts) p)) by (apply (Permutation_in _ P); apply in_app_iff; right; left; reflexivity). destruct X as [<-|X]; [exact POS|].
        apply in_flat_map in X as (j & _ & X). apply (tr_range _ T) in X. unfold n. lia. }
      destruct (nth_error ts i) as [t|] eqn:NT; [|apply nth_error_None in NT; unfold n in I; lia].
      assert (NI : ~ In i p). { intros X. apply NoDup_remove_2 in ND. apply ND. apply in_app_iff. auto. }
      destruct (IH (p ++ [i]) (queue ++ vt_children t)) as (q & E & Q).
      * rewrite <- (rev_involutive (p ++ [i])), rev_app_distr. apply NoDup_rev. cbn. constructor; [rewrite <- in_rev; exact NI|apply NoDup_rev; exact N].
      * intros x X. apply in_app_iff in X as [X|[<-|[]]]; auto.
      * rewrite app_length. cbn. lia.
      * rewrite flat_map_app. cbn [flat_map]. rewrite app_nil_r. unfold children at 2. rewrite NT. rewrite app_comm_cons. rewrite <- P. rewrite <- !app_assoc. reflexivity.
      * exists (i :: q). cbn [flat_map]. rewrite NT, E. split; [reflexivity|]. rewrite <- app_assoc in Q. exact Q.
Qed.

(** ** All scopes *)
Lemma existsb_sel : forall s name xs, existsb (same_use s name) (List.filter (fun x => Nat.eqb (fst x) s) xs) = existsb (same_use s name) xs.
Proof.
  intros s name xs. induction xs as [|[s' o] xs IH]; [reflexivity|]. cbn [List.filter existsb fst]. destruct (Nat.eqb s' s) eqn:E; cbn [existsb]; [rewrite IH; reflexivity|].
  rewrite IH. unfold same_use at 2. cbn [fst]. rewrite E. reflexivity.
Qed.
Lemma flat_map_point : forall (f g : nat -> list variable) s x l, NoDup l -> In s l -> f s = x ++ g s -> (forall i, i <> s -> f i = g i) -> Permutation (flat_map f l) (x ++ flat_map g l).
Proof.
  intros f g s x l N. induction N as [|i l NI N IH]; intros I E O; [destruct I|]. cbn. destruct (Nat.eq_dec i s) as [->|NE].
  - rewrite E. rewrite <- app_assoc. do 2 apply Permutation_app_head. replace (flat_map f l) with (flat_map g l); [reflexivity|].
    clear -NI O. induction l as [|j l IH]; [reflexivity|]. cbn. rewrite O by (intros ->; apply NI; left; reflexivity). f_equal. apply IH. intros X. apply NI. right. exact X.
  - destruct I as [I|I]; [congruence|]. rewrite (O i NE), IH by assumption. rewrite !app_assoc. apply Permutation_app_tail. apply Permutation_app_comm.
Qed.
Lemma unread_scopes : forall n xs, (forall s o, In (s, o) xs -> (s < n)%nat) -> Permutation (flat_map (fun i => unread (map (pair i) (sel i xs))) (seq 0 n)) (unread xs).
Proof.
  intros n xs. induction xs as [|[s o] xs IH]; intros H.
  - cbn. replace (flat_map _ (seq 0 n)) with (@nil variable); [reflexivity|]. generalize (seq 0 n). clear. induction l as [|i l IH]; [reflexivity|exact IH].
  - assert (L : (s < n)%nat) by (apply (H s o); left; reflexivity). specialize (IH ltac:(intros; eapply H; right; eauto)).
    rewrite (flat_map_point _ (fun i => unread (map (pair i) (sel i xs))) s (if oc_decl o && negb (existsb (same_use s (oc_name o)) xs) then [oc_var o] else [])).
    + rewrite IH. cbn [unread]. destruct (oc_decl o && _); reflexivity.
    + apply seq_NoDup.
    + apply in_seq. lia.
    + cbv beta. rewrite !sel_pair. cbn [List.filter fst]. rewrite Nat.eqb_refl. cbn [unread]. rewrite existsb_sel. destruct (oc_decl o && _); reflexivity.
    + intros i NE. cbv beta. rewrite !sel_pair. cbn [List.filter fst]. destruct (Nat.eqb_spec s i) as [->|]; [congruence|reflexivity].
Qed.
Lemma in_order_sel : forall i xs, in_order xs -> in_order (map (pair i) (sel i xs)).
Proof.
  intros i xs H. rewrite sel_pair. intros a s u b E D o I N.
  assert (X : exists a' b', xs = a' ++ (s, u) :: b' /\ List.filter (fun x => Nat.eqb (fst x) i) a' = a).
  { clear -E. revert a E. induction xs as [|x xs IH]; intros a E; cbn in E; [destruct a; discriminate E|]. destruct (Nat.eqb (fst x) i) eqn:F.
    - destruct a as [|y a]; cbn in E; [injection E as E1 _; subst x; exists [], xs; auto|]. injection E as -> E. destruct (IH a E) as (a' & b' & -> & <-). exists (y :: a'), b'. split; [reflexivity|]. cbn. rewrite F. reflexivity.
    - destruct (IH a E) as (a' & b' & -> & <-). exists (x :: a'), b'. split; [reflexivity|]. cbn. rewrite F. reflexivity. }
  destruct X as (a' & b' & -> & <-). apply filter_In in I as [I _]. eapply H; eauto.
Qed.
Lemma unused_scoped : forall root ops, balanced 0 ops -> in_order (scoped 1 [0%nat] ops) -> Permutation (UnusedVariables (LoadTables root ops)) (unread (scoped 1 [0%nat] ops)).
Proof.
  intros root ops B' O. destruct (load_ok ops _ _ _ _ _ (root_ok root) B' eq_refl) as (n & K). cbn [app] in K. unfold LoadTables. set (d := fold_left var_step ops _) in *.
  destruct K as [A S' OP V D T]. unfold UnusedVariables. rewrite S'. cbn [rev app].
  assert (POS : (0 < length (vd_tables d))%nat) by (rewrite A; apply OP; left; reflexivity).
  destruct (loop_all _ T POS (length (vd_tables d)) [] [0%nat] (NoDup_nil _) (fun i I => match I with end) (Nat.add_0_r _) (Permutation_refl _)) as (q & E & P). rewrite E. cbn in P.
  rewrite P. rewrite <- (unread_scopes (length (vd_tables d)) (scoped 1 [0%nat] ops)) by (intros s o I; rewrite A; eauto).
  assert (Q : forall l, (forall i, In i l -> (i < length (vd_tables d))%nat) -> Permutation (flat_map (fun i => match nth_error (vd_tables d) i with Some t => table_unused (vt_vars t) | None => [] end) l)
     (flat_map (fun i => unread (map (pair i) (sel i (scoped 1 [0%nat] ops)))) l)).
  { induction l as [|i l IH]; intros H; [reflexivity|]. cbn. apply Permutation_app; [|apply IH; intros; apply H; right; assumption].
    destruct (nth_error (vd_tables d) i) as [t|] eqn:N; [|apply nth_error_None in N; specialize (H i (or_introl eq_refl)); lia]. rewrite (V _ _ N). apply table_unread. apply in_order_sel. exact O. }
  apply Q. intros i I. apply in_seq in I. lia.
Qed.
