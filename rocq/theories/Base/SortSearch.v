(** Go's sort.Search. *)
From Coq Require Import List Bool Arith Lia.
Import ListNotations.

(** Go package sort, func Search: the loop
    [for i < j { h := (i+j)/2; if !f(h) { i = h+1 } else { j = h } }].
    The fuel is the size of the interval, which is always enough. *)
Fixpoint search_loop (fuel : nat) (f : nat -> bool) (i j : nat) : nat :=
  match fuel with
  | 0 => i
  | S fuel' =>
      if i <? j then
        let h := (i + j) / 2 in
        if negb (f h) then search_loop fuel' f (h + 1) j else search_loop fuel' f i h
      else i
  end.
Definition sort_search (n : nat) (f : nat -> bool) : nat := search_loop n f 0 n.

(** sort.Search finds the first index at which a monotone predicate holds. *)
Lemma search_loop_spec : forall fuel f i j, j - i <= fuel -> i <= j ->
  (forall a b, a <= b -> f a = true -> f b = true) ->
  let k := search_loop fuel f i j in
  i <= k <= j /\ (forall a, i <= a < k -> f a = false) /\ (k < j -> f k = true).
Proof.
  induction fuel as [|fuel IH]; intros f i j L IJ M; cbn [search_loop].
  - repeat split; try lia; intros; lia.
  - destruct (Nat.ltb_spec i j) as [LT|GE]; [|repeat split; try lia; intros; lia].
    assert (D := Nat.div_mod (i + j) 2 ltac:(lia)). assert (MB := Nat.mod_upper_bound (i + j) 2 ltac:(lia)).
    set (h := (i + j) / 2) in *. destruct (f h) eqn:F; cbn [negb].
    + destruct (IH f i h) as (B & P & Q); [lia|lia|exact M|]. split; [lia|]. split; [exact P|]. intros K.
      destruct (Nat.eq_dec (search_loop fuel f i h) h) as [->|]; [exact F|apply Q; lia].
    + destruct (IH f (h + 1) j) as (B & P & Q); [lia|lia|exact M|]. split; [lia|]. split; [|exact Q]. intros a A.
      destruct (le_lt_dec a h) as [AH|AH]; [|apply P; lia]. destruct (f a) eqn:FA; [|reflexivity]. rewrite (M a h AH FA) in F. discriminate.
Qed.

Lemma sort_search_spec : forall n f,
  (forall a b, a <= b -> b < n -> f a = true -> f b = true) ->
  sort_search n f <= n
  /\ (forall a, a < sort_search n f -> f a = false)
  /\ (sort_search n f < n -> f (sort_search n f) = true).
Proof.
  intros n f M. unfold sort_search.
  assert (E : forall fuel i j, j <= n -> search_loop fuel f i j = search_loop fuel (fun a => if n <=? a then true else f a) i j).
  { induction fuel as [|fuel IH]; intros i j J; [reflexivity|]. cbn [search_loop]. destruct (Nat.ltb_spec i j) as [LT|GE]; [|reflexivity].
    assert (D := Nat.div_mod (i + j) 2 ltac:(lia)). assert (MB := Nat.mod_upper_bound (i + j) 2 ltac:(lia)).
    set (h := (i + j) / 2) in *. destruct (Nat.leb_spec n h); [lia|]. destruct (f h); cbn [negb]; apply IH; lia. }
  rewrite (E n 0 n) by lia.
  destruct (search_loop_spec n (fun a => if n <=? a then true else f a) 0 n) as (B & P & Q); [lia|lia| |].
  - intros a b AB. destruct (Nat.leb_spec n a), (Nat.leb_spec n b); try lia; eauto.
  - cbv zeta in *. set (k := search_loop n _ 0 n) in *. split; [lia|]. split.
    + intros a A. specialize (P a ltac:(lia)). destruct (Nat.leb_spec n a); [discriminate|exact P].
    + intros K. specialize (Q K). destruct (Nat.leb_spec n k); [lia|exact Q].
Qed.
