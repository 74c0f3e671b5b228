From Coq Require Import String.
From Coq Require Import List Bool ZArith Lia.
From Coq.Strings Require Import Byte.
From Verif Require Import Base.Bytes Base.BytesProofs Symbols.Symbols Symbols.KeysModel Types.TypesModel Types.TypesSpec.
Import ListNotations.
Open Scope list_scope.

(** ** Array suffixes *)
Lemma arrays_rev : forall n r, rev (arrays n) ++ r = match n with O => r | S n => x5d :: x5b :: rev (arrays n) ++ r end.
Proof.
  assert (C : forall n, arrays n ++ B "[]" = B "[]" ++ arrays n).
  { induction n as [|n IH]; [reflexivity|]. cbn [arrays]. rewrite <- app_assoc, IH. reflexivity. }
  intros [|n] r; [reflexivity|]. cbn [arrays]. rewrite <- C, rev_app_distr. reflexivity.
Qed.

Lemma strip_pairs : forall n r l, strip_arrays (rev (arrays n) ++ r) l = strip_arrays r (l + Z.of_nat n).
Proof.
  induction n as [|n IH]; intros r l.
  - cbn. f_equal. lia.
  - rewrite arrays_rev. cbn [strip_arrays byte_eqb negb]. change (byte_eqb x5d x5d) with true. change (byte_eqb x5b x5b) with true. cbn [negb].
    rewrite IH. f_equal. lia.
Qed.

Lemma strip_element : forall e l, element e -> strip_arrays (rev e) l =
  match e with [] => Some (None, l) | _ => if str_eqb e (B "]") then None else Some (Some e, l) end.
Proof.
  intros e l EL. destruct (rev e) as [|c r] eqn:E.
  { destruct e; [reflexivity|]. cbn in E. destruct (rev e); discriminate. }
  assert (E' : e = rev r ++ [c]) by (rewrite <- (rev_involutive e), E; reflexivity).
  assert (NE : e <> []) by (rewrite E'; destruct (rev r); discriminate).
  cbn [strip_arrays]. destruct e as [|x e0]; [congruence|]. remember (x :: e0) as e.
  destruct (byte_eqb_spec c x5d) as [->|NC]; cbn [negb].
  - destruct r as [|d r]; [rewrite E'; reflexivity|].
    assert (NS : str_eqb e (B "]") = false).
    { apply str_eqb_neq. rewrite E'. intros H. assert (L := f_equal (@length _) H). cbn [rev] in L. rewrite !app_length in L. cbn in L. lia. }
    rewrite NS. destruct (byte_eqb_spec d x5b) as [->|ND]; cbn [negb].
    + exfalso. apply (EL (rev r)). rewrite E'. cbn [rev]. rewrite <- app_assoc. reflexivity.
    + rewrite E'. reflexivity.
  - assert (NS : str_eqb e (B "]") = false).
    { apply str_eqb_neq. rewrite E'. intros H. change (B "]") with ([] ++ [x5d]) in H. apply app_inj_tail in H. destruct H as [_ H]. contradiction. }
    rewrite NS. rewrite E'. reflexivity.
Qed.

Definition canonical (e : gostr) : gostr := match Aliases e with Some a => a | None => e end.

(** the whole of NewTypeString *)
Theorem NewTypeString_spec : forall e n, element e ->
  NewTypeString (e ++ arrays n) =
    match e with
    | [] => Some (TS (arrays n) (arrays n) (Z.of_nat n))
    | _ => if str_eqb e (B "]") then None else Some (TS (canonical e) (canonical e) (Z.of_nat n))
    end.
Proof.
  intros e n EL. unfold NewTypeString, resolveRawWithArrayLevel. cbn [ts_original ts_array ts_fqn].
  rewrite rev_app_distr, strip_pairs, strip_element by assumption. destruct e as [|x e].
  - cbn [ts_original app]. assert (A : Aliases (arrays n) = None) by (destruct n; reflexivity). rewrite A. reflexivity.
  - destruct (str_eqb (x :: e) (B "]")); [reflexivity|]. cbn [ts_original ts_array]. unfold canonical. reflexivity.
Qed.

Lemma split_arrays : forall s, exists e n, s = e ++ arrays n /\ element e.
Proof.
  intros s. remember (length s) as m eqn:EM. revert s EM. induction m as [m IH] using lt_wf_ind. intros s ->.
  destruct (rev s) as [|c [|d r]] eqn:E.
  - exists s, 0%nat. rewrite app_nil_r. split; [reflexivity|]. intros p H. rewrite H in E. rewrite rev_app_distr in E. discriminate.
  - exists s, 0%nat. rewrite app_nil_r. split; [reflexivity|]. intros p H. rewrite H in E. rewrite rev_app_distr in E. discriminate.
  - assert (S : s = rev r ++ [d; c]) by (rewrite <- (rev_involutive s), E; cbn [rev]; rewrite <- app_assoc; reflexivity).
    destruct (byte_eqb_spec c x5d) as [->|NC]; [destruct (byte_eqb_spec d x5b) as [->|ND]|].
    + destruct (IH (length (rev r))) with (s := rev r) as (e & n & E1 & EL); [rewrite S, app_length; simpl; lia|reflexivity|].
      exists e, (n + 1)%nat. split; [|exact EL]. rewrite S, E1, <- app_assoc. f_equal. clear.
      induction n as [|n IHn]; [reflexivity|]. cbn [arrays Nat.add]. rewrite <- app_assoc, IHn. reflexivity.
    + exists s, 0%nat. rewrite app_nil_r. split; [reflexivity|]. intros p H. rewrite H, rev_app_distr in E. cbn in E. injection E as E _. congruence.
    + exists s, 0%nat. rewrite app_nil_r. split; [reflexivity|]. intros p H. rewrite H, rev_app_distr in E. cbn in E. injection E as E _. congruence.
Qed.

Lemma join_repeat : forall n, join (repeat (B "[]") n) [] = arrays n.
Proof.
  induction n as [|n IH]; [reflexivity|]. cbn [repeat arrays]. rewrite <- IH. destruct n; reflexivity.
Qed.

Lemma ToString_spec : forall f o n, ts_ToString (TS f o (Z.of_nat n)) = f ++ arrays n.
Proof. intros. unfold ts_ToString. cbn [ts_fqn ts_array]. rewrite Nat2Z.id, join_repeat. reflexivity. Qed.

Lemma canonical_other : forall e, ~ alias_name e -> canonical e = e.
Proof.
  intros e N. unfold canonical, Aliases. destruct (str_eqb_spec e (B "boolean")) as [->|N1]; [exfalso; apply N; left; reflexivity|].
  destruct (str_eqb_spec e (B "integer")) as [->|N2]; [exfalso; apply N; right; reflexivity|reflexivity].
Qed.

(** ** Unions *)
Lemma hasFQN_iff : forall t f, hasFQN t f = true <-> In f (fqns t).
Proof.
  intros t f. unfold hasFQN, fqns. rewrite existsb_exists, in_map_iff. split.
  - intros (x & I & E). apply str_eqb_eq in E. eauto.
  - intros (x & E & I). exists x. split; [exact I|]. now apply str_eqb_eq.
Qed.

Lemma tc_add_cases : forall t x, (In (ts_fqn x) (fqns t) /\ tc_add t x = t) \/ (~ In (ts_fqn x) (fqns t) /\ tc_add t x = t ++ [x]).
Proof.
  intros t x. unfold tc_add. destruct (hasFQN t (ts_fqn x)) eqn:H.
  - left. split; [now apply hasFQN_iff|reflexivity].
  - right. split; [|reflexivity]. intros I. apply hasFQN_iff in I. congruence.
Qed.

Lemma tc_merge_nodup : forall u t, NoDup (fqns t) -> NoDup (fqns (tc_merge t u)).
Proof.
  induction u as [|x u IH]; intros t ND; [exact ND|]. cbn [tc_merge fold_left]. apply IH.
  destruct (tc_add_cases t x) as [[_ ->]|[N ->]]; [exact ND|]. unfold fqns in *. rewrite map_app. cbn [map].
  rewrite <- (rev_involutive (map ts_fqn t ++ _)). apply NoDup_rev. rewrite rev_app_distr. cbn [rev app]. constructor.
  - rewrite <- in_rev. exact N.
  - apply NoDup_rev. exact ND.
Qed.

(** the elements of [u] that [t] lacks, first occurrences only *)
Fixpoint fresh (seen : list gostr) (u : type_composite) : type_composite :=
  match u with
  | [] => []
  | x :: u => if existsb (str_eqb (ts_fqn x)) seen then fresh seen u else x :: fresh (seen ++ [ts_fqn x]) u
  end.

Lemma existsb_in : forall f l, existsb (str_eqb f) l = true <-> In f l.
Proof.
  intros f l. rewrite existsb_exists. split.
  - intros (x & I & E). apply str_eqb_eq in E. now subst.
  - intros I. exists f. split; [exact I|apply str_eqb_refl].
Qed.

Lemma tc_merge_fresh : forall u t, tc_merge t u = t ++ fresh (fqns t) u.
Proof.
  induction u as [|x u IH]; intros t; [cbn; now rewrite app_nil_r|]. cbn [tc_merge fold_left fresh].
  change (fold_left tc_add u (tc_add t x)) with (tc_merge (tc_add t x) u).
  rewrite IH. destruct (tc_add_cases t x) as [[I ->]|[N ->]].
  - apply existsb_in in I. rewrite I. reflexivity.
  - destruct (existsb (str_eqb (ts_fqn x)) (fqns t)) eqn:E; [apply existsb_in in E; contradiction|].
    unfold fqns. rewrite map_app, <- app_assoc. reflexivity.
Qed.

Lemma fresh_in : forall u seen f, In f (fqns (fresh seen u)) <-> In f (fqns u) /\ ~ In f seen.
Proof.
  induction u as [|x u IH]; intros seen f; cbn [fresh fqns map]; [intuition|].
  destruct (existsb (str_eqb (ts_fqn x)) seen) eqn:E.
  - apply existsb_in in E. unfold fqns in IH. rewrite IH. cbn [In]. intuition. subst. contradiction.
  - assert (N : ~ In (ts_fqn x) seen) by (intros I; apply existsb_in in I; congruence).
    cbn [map In]. unfold fqns in IH. rewrite IH. rewrite in_app_iff. cbn [In].
    destruct (str_eq_dec (ts_fqn x) f) as [<-|NE]; intuition.
Qed.

Lemma fresh_sublist : forall u seen, exists l, fresh seen u = l /\ forall x y, In x l -> x = y -> In y u.
Proof.
  intros u seen. exists (fresh seen u). split; [reflexivity|]. intros x y I <-. revert seen I.
  induction u as [|z u IH]; intros seen I; [destruct I|]. cbn [fresh] in I. destruct (existsb _ _).
  - right. eapply IH; eauto.
  - destruct I as [->|I]; [left; reflexivity|right; eapply IH; eauto].
Qed.

Lemma fresh_none : forall u seen, (forall x, In x u -> In (ts_fqn x) seen) -> fresh seen u = [].
Proof.
  induction u as [|x u IH]; intros seen H; [reflexivity|]. cbn [fresh].
  assert (I := H x (or_introl eq_refl)). apply existsb_in in I. rewrite I. apply IH. intros y Iy. apply H. right. exact Iy.
Qed.

(** first occurrences: x of fresh is at the first index of u with its fqn *)
Lemma fresh_first : forall u seen x, In x (fresh seen u) ->
  exists before after, u = before ++ x :: after /\ ~ In (ts_fqn x) (fqns before).
Proof.
  induction u as [|z u IH]; intros seen x I; [destruct I|]. cbn [fresh] in I. destruct (existsb (str_eqb (ts_fqn z)) seen) eqn:E.
  - assert (NS : ~ In (ts_fqn x) seen) by (apply (fresh_in u seen (ts_fqn x)); unfold fqns; apply in_map; exact I).
    destruct (IH seen x I) as (b & a & -> & N). exists (z :: b), a. split; [reflexivity|]. intros [H|H]; [|contradiction].
    apply NS. rewrite <- H. now apply existsb_in.
  - destruct I as [->|I].
    + exists [], u. split; [reflexivity|]. intros [].
    + assert (NS : ~ In (ts_fqn x) (seen ++ [ts_fqn z])) by (apply (fresh_in u _ (ts_fqn x)); unfold fqns; apply in_map; exact I).
      destruct (IH _ x I) as (b & a & -> & N). exists (z :: b), a. split; [reflexivity|]. intros [H|H]; [|contradiction].
      apply NS. apply in_or_app. right. left. exact H.
Qed.

Lemma fresh_order : forall u seen, exists keep : list bool, length keep = length u /\
  fresh seen u = map snd (List.filter (fun p => fst p) (combine keep u)).
Proof.
  induction u as [|x u IH]; intros seen; [exists []; auto|]. cbn [fresh]. destruct (existsb _ _).
  - destruct (IH seen) as (k & L & E). exists (false :: k). split; [simpl; lia|]. exact E.
  - destruct (IH (seen ++ [ts_fqn x])) as (k & L & E). exists (true :: k). split; [simpl; lia|]. cbn. now rewrite E.
Qed.

Lemma merge_array_level : forall u t n, tc_mergeWithArrayLevel t u n = tc_merge t (map (fun x => TS (ts_fqn x) (ts_original x) (ts_array x + n)) u).
Proof.
  induction u as [|x u IH]; intros t n; [reflexivity|]. cbn. unfold tc_mergeWithArrayLevel, tc_merge in IH. apply IH.
Qed.
