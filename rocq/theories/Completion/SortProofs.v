From Coq Require Import ZArith List Bool Arith Lia Permutation.
From Verif Require Import Base.SortSearch Completion.SortModel.
Import ListNotations.
Open Scope nat_scope.

Section Proofs.
Context {A : Type}.
Lemma set_nth_split : forall (l : list A) i x y, nth_error l i = Some y -> exists a b, l = a ++ y :: b /\ length a = i /\ set_nth i x l = a ++ x :: b.
Proof.
  induction l as [|z l IH]; intros i x y E; [destruct i; discriminate E|]. destruct i as [|i]; cbn in E; [injection E as ->; exists [], l; auto|].
  destruct (IH i x y E) as (a & b & -> & L & S'). exists (z :: a), b. cbn. rewrite L, S'. auto.
Qed.
Lemma swap_perm : forall i j (l : list A), Permutation (swap i j l) l.
Proof.
  intros i j l. unfold swap. destruct (nth_error l i) as [x|] eqn:X; [|reflexivity]. destruct (nth_error l j) as [y|] eqn:Y; [|reflexivity].
  destruct (set_nth_split l i y x X) as (a & b & E & L & S'). rewrite S'.
  destruct (Nat.lt_trichotomy j i) as [H|[H|H]].
  - rewrite E, nth_error_app1 in Y by lia. destruct (set_nth_split (a ++ y :: b) j x y) as (c & d & E2 & L2 & S2); [rewrite nth_error_app1 by lia; exact Y|]. rewrite S2.
    assert (P : Permutation (c ++ x :: d) (x :: c ++ d)) by (symmetry; apply Permutation_middle). rewrite P.
    destruct (app_eq_app _ _ _ _ E2) as (k & [[K1 K2]|[K1 K2]]).
    + destruct k as [|z k]; [rewrite app_nil_r in K1; subst a; lia|]. cbn in K2. injection K2 as <- ->. subst l a. rewrite <- !app_assoc. cbn.
      rewrite (Permutation_middle (c ++ k) y b) || idtac. transitivity (x :: y :: c ++ k ++ b).
      * apply perm_skip. rewrite app_assoc. rewrite <- Permutation_middle. rewrite app_assoc. reflexivity.
      * rewrite <- Permutation_middle. rewrite (app_assoc c k). transitivity (y :: x :: (c ++ k) ++ b); [apply perm_swap|]. apply perm_skip. rewrite Permutation_middle. rewrite <- app_assoc. reflexivity.
    + assert (length c = length a + length k) by (rewrite K1, app_length; reflexivity). lia.
  - subst j. rewrite X in Y. injection Y as <-. destruct (set_nth_split (a ++ x :: b) i x x) as (c & d & E2 & L2 & S2); [rewrite nth_error_app2 by lia; replace (i - length a) with 0 by lia; reflexivity|]. rewrite S2, <- E2, E. reflexivity.
  - rewrite E, nth_error_app2 in Y by lia. replace (j - length a) with (S (j - length a - 1)) in Y by lia. cbn in Y.
    destruct (set_nth_split (a ++ y :: b) j x y) as (c & d & E2 & L2 & S2); [rewrite nth_error_app2 by lia; replace (j - length a) with (S (j - length a - 1)) by lia; exact Y|]. rewrite S2.
    destruct (app_eq_app _ _ _ _ E2) as (k & [[K1 K2]|[K1 K2]]).
    + assert (length a = length c + length k) by (rewrite K1, app_length; reflexivity). lia.
    + destruct k as [|z k]; [rewrite app_nil_r in K1; subst c; lia|]. cbn in K2. injection K2 as <- ->. subst l c. rewrite <- !app_assoc. cbn.
      apply Permutation_app_head. transitivity (y :: x :: k ++ d); [apply perm_skip; symmetry; apply Permutation_middle|]. transitivity (x :: y :: k ++ d); [apply perm_swap|]. apply perm_skip. apply Permutation_middle.
Qed.

Context (less : nat -> nat -> bool).
Lemma sink_perm : forall j a (l : list A), Permutation (sink less j a l) l.
Proof. induction j as [|j IH]; intros a l; cbn [sink]; [reflexivity|]. destruct (_ && _); [|reflexivity]. rewrite IH. apply swap_perm. Qed.
Lemma insertion_perm : forall n i a (l : list A), Permutation (insertion_from less n i a l) l.
Proof. induction n as [|n IH]; intros i a l; cbn [insertion_from]; [reflexivity|]. rewrite IH. apply sink_perm. Qed.
Lemma swapRange_perm : forall n a b (l : list A), Permutation (swapRange n a b l) l.
Proof. induction n as [|n IH]; intros a b l; cbn [swapRange]; [reflexivity|]. rewrite IH. apply swap_perm. Qed.
Lemma rotate_perm : forall fuel m i j (l : list A), Permutation (rotate_loop fuel m i j l) l.
Proof. induction fuel as [|fuel IH]; intros m i j l; cbn [rotate_loop]; [reflexivity|]. destruct (_ =? _); [apply swapRange_perm|]. destruct (_ <? _); rewrite IH; apply swapRange_perm. Qed.
Lemma bubble_up_perm : forall n k (l : list A), Permutation (bubble_up n k l) l.
Proof. induction n as [|n IH]; intros k l; cbn [bubble_up]; [reflexivity|]. rewrite IH. apply swap_perm. Qed.
Lemma bubble_down_perm : forall n k (l : list A), Permutation (bubble_down n k l) l.
Proof. induction n as [|n IH]; intros k l; cbn [bubble_down]; [reflexivity|]. rewrite IH. apply swap_perm. Qed.
Lemma if_perm : forall (c : bool) (x y l : list A), Permutation x l -> Permutation y l -> Permutation (if c then x else y) l.
Proof. intros [|]; auto. Qed.
Lemma symMerge_perm : forall fuel a m b (l : list A), Permutation (symMerge less fuel a m b l) l.
Proof.
  induction fuel as [|fuel IH]; intros a m b l; cbn [symMerge]; [reflexivity|]. apply if_perm; [apply bubble_up_perm|]. apply if_perm; [apply bubble_down_perm|].
  destruct (if _ <? m then _ else _) as [s r]. set (st := search_loop _ _ _ _). cbv zeta.
  set (l1 := if (st <? m) && _ then _ else l). assert (P1 : Permutation l1 l) by (apply if_perm; [apply rotate_perm|reflexivity]).
  set (l2 := if (a <? st) && _ then _ else l1). assert (P2 : Permutation l2 l) by (apply if_perm; [rewrite IH; exact P1|exact P1]).
  apply if_perm; [rewrite IH; exact P2|exact P2].
Qed.
Lemma SliceStable_perm : forall l : list A, Permutation (SliceStable less l) l.
Proof.
  intros l. unfold SliceStable. set (n := length l).
  assert (B : forall fuel block a (l : list A), Permutation (sort_blocks less fuel block n a l) l).
  { induction fuel as [|fuel IH]; intros block a l'; cbn [sort_blocks]; [reflexivity|]. destruct (_ <=? _); [rewrite IH|]; apply insertion_perm. }
  assert (M : forall fuel block a (l : list A), Permutation (merge_blocks less fuel block n a l) l).
  { induction fuel as [|fuel IH]; intros block a l'; cbn [merge_blocks]; [reflexivity|]. destruct (_ <=? _); [rewrite IH; apply symMerge_perm|]. destruct (_ <? _); [apply symMerge_perm|reflexivity]. }
  assert (R : forall fuel block (l : list A), Permutation (merge_rounds less fuel block n l) l).
  { induction fuel as [|fuel IH]; intros block l'; cbn [merge_rounds]; [reflexivity|]. destruct (_ <? _); [|reflexivity]. rewrite IH. apply M. }
  rewrite R. apply B.
Qed.

(** when no later position is less than an earlier one nothing moves *)
Hypothesis ordered : forall i j, i < j -> less j i = false.
Lemma search_all_false : forall fuel f i j, (forall h, i <= h < j -> f h = false) -> i <= j -> j - i <= fuel -> search_loop fuel f i j = j.
Proof.
  induction fuel as [|fuel IH]; intros f i j F L K; cbn [search_loop]; [lia|]. destruct (Nat.ltb_spec i j) as [H|H]; [|lia].
  assert (D := Nat.div_mod (i + j) 2 ltac:(lia)). assert (MB := Nat.mod_upper_bound (i + j) 2 ltac:(lia)). set (h := (i + j) / 2) in *. rewrite F by lia. cbn [negb]. apply IH; [intros; apply F; lia|lia|lia].
Qed.
Lemma search_all_true : forall fuel f i j, (forall h, i <= h < j -> f h = true) -> i <= j -> j - i <= fuel -> search_loop fuel f i j = i.
Proof.
  induction fuel as [|fuel IH]; intros f i j F L K; cbn [search_loop]; [lia|]. destruct (Nat.ltb_spec i j) as [H|H]; [|lia].
  assert (D := Nat.div_mod (i + j) 2 ltac:(lia)). assert (MB := Nat.mod_upper_bound (i + j) 2 ltac:(lia)). set (h := (i + j) / 2) in *. rewrite F by lia. cbn [negb]. apply IH; [intros; apply F; lia|lia|lia].
Qed.
Lemma insertion_same : forall n i a (l : list A), insertion_from less n i a l = l.
Proof. induction n as [|n IH]; intros i a l; cbn [insertion_from]; [reflexivity|]. rewrite IH. destruct i as [|i]; cbn [sink]; [reflexivity|]. rewrite (ordered i (S i)) by lia. rewrite andb_false_r. reflexivity. Qed.
Lemma symMerge_same : forall fuel a m b (l : list A), a < m -> m < b -> symMerge less fuel a m b l = l.
Proof.
  induction fuel as [|fuel IH]; intros a m b l AM MB; cbn [symMerge]; [reflexivity|]. destruct (Nat.eqb_spec (m - a) 1) as [E|E].
  { rewrite search_all_true; [|intros h H; rewrite ordered by lia; reflexivity|lia|lia]. replace (m - 1 - a) with 0 by lia. reflexivity. }
  destruct (Nat.eqb_spec (b - m) 1) as [E'|E'].
  { rewrite search_all_false; [|intros h H; apply ordered; lia|lia|lia]. replace (m - m) with 0 by lia. reflexivity. }
  assert (D := Nat.div_mod (a + b) 2 ltac:(lia)). assert (DM := Nat.mod_upper_bound (a + b) 2 ltac:(lia)). set (mid := (a + b) / 2) in *. cbv zeta.
  destruct (Nat.ltb_spec mid m) as [H|H].
  - rewrite (search_all_false (mid - (mid + m - b)) _ (mid + m - b) mid); [|intros h K; apply ordered; lia|lia|lia].
    replace (mid + m - mid) with m by lia. rewrite (Nat.ltb_irrefl m), andb_false_r, (Nat.ltb_irrefl mid), andb_false_r.
    destruct ((mid <? m) && (m <? b)); [|reflexivity]. apply IH; lia.
  - rewrite (search_all_false (m - a) _ a m); [|intros h K; apply ordered; lia|lia|lia].
    replace (mid + m - m) with mid by lia. rewrite (Nat.ltb_irrefl m). cbn [andb]. rewrite (Nat.ltb_irrefl mid). cbn [andb]. destruct ((a <? m) && (m <? mid)) eqn:G; [|reflexivity].
    apply andb_true_iff in G as [_ G]. apply Nat.ltb_lt in G. apply IH; lia.
Qed.
Lemma SliceStable_same : forall l : list A, SliceStable less l = l.
Proof.
  intros l. unfold SliceStable. set (n := length l).
  assert (B : forall fuel block a (l : list A), sort_blocks less fuel block n a l = l).
  { induction fuel as [|fuel IH]; intros block a l'; cbn [sort_blocks]; [reflexivity|]. unfold insertionSort. destruct (_ <=? _); [rewrite IH|]; apply insertion_same. }
  assert (M : forall fuel block a (l : list A), 0 < block -> merge_blocks less fuel block n a l = l).
  { induction fuel as [|fuel IH]; intros block a l' P; cbn [merge_blocks]; [reflexivity|]. destruct (Nat.leb_spec (a + 2 * block) n) as [H|H]; [rewrite IH by exact P; apply symMerge_same; lia|]. destruct (Nat.ltb_spec (a + block) n); [apply symMerge_same; lia|reflexivity]. }
  assert (R : forall fuel block (l : list A), 0 < block -> merge_rounds less fuel block n l = l).
  { induction fuel as [|fuel IH]; intros block l' P; cbn [merge_rounds]; [reflexivity|]. destruct (_ <? _); [|reflexivity]. rewrite IH by lia. apply M. exact P. }
  rewrite R by lia. apply B.
Qed.
End Proofs.
