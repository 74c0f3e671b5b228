(** Model of the ordering of member completion, internal/lsp/completion.go, and
    of Go 1.18's sort.SliceStable (sort/zfuncversion.go), which it uses. *)
From Coq Require Import ZArith List Bool Arith.
From Verif Require Import Base.SortSearch.
Import ListNotations.
Open Scope nat_scope.

Section Sort.
Context {A : Type}.
(** the comparison the caller passes: it receives positions *)
Context (less : nat -> nat -> bool).

(** reflect.Swapper: exchange two items. Outside the slice Go panics; here
    nothing happens. *)
Fixpoint set_nth (i : nat) (x : A) (l : list A) : list A :=
  match l, i with
  | [], _ => []
  | _ :: l, 0 => x :: l
  | y :: l, S i => y :: set_nth i x l
  end.
Definition swap (i j : nat) (l : list A) : list A :=
  match nth_error l i, nth_error l j with
  | Some x, Some y => set_nth j x (set_nth i y l)
  | _, _ => l
  end.

(** zfuncversion.go insertionSort_func; the inner loop at [j] *)
Fixpoint sink (j a : nat) (l : list A) : list A :=
  match j with
  | 0 => l
  | S k => if (a <? j) && less j k then sink k a (swap j k l) else l
  end.
Fixpoint insertion_from (steps i a : nat) (l : list A) : list A :=
  match steps with
  | 0 => l
  | S steps => insertion_from steps (S i) a (sink i a l)
  end.
Definition insertionSort (a b : nat) (l : list A) : list A := insertion_from (b - (a + 1)) (a + 1) a l.

(** zfuncversion.go swapRange_func *)
Fixpoint swapRange (n a b : nat) (l : list A) : list A :=
  match n with
  | 0 => l
  | S n => swapRange n (S a) (S b) (swap a b l)
  end.
(** zfuncversion.go rotate_func; [fuel] is i + j *)
Fixpoint rotate_loop (fuel m i j : nat) (l : list A) : list A :=
  match fuel with
  | 0 => l
  | S fuel =>
      if i =? j then swapRange i (m - i) m l
      else if j <? i then rotate_loop fuel m (i - j) j (swapRange j (m - i) m l)
      else rotate_loop fuel m i (j - i) (swapRange i (m - i) (m + j - i) l)
  end.
Definition rotate (a m b : nat) (l : list A) : list A := rotate_loop (b - a) m (m - a) (b - m) l.

(** the loops [for k := a; k < i-1; k++ { Swap(k, k+1) }] and
    [for k := m; k > i; k-- { Swap(k, k-1) }] *)
Fixpoint bubble_up (n k : nat) (l : list A) : list A :=
  match n with
  | 0 => l
  | S n => bubble_up n (S k) (swap k (S k) l)
  end.
Fixpoint bubble_down (n k : nat) (l : list A) : list A :=
  match n with
  | 0 => l
  | S n => bubble_down n (k - 1) (swap k (k - 1) l)
  end.

(** zfuncversion.go symMerge_func; [fuel] is b - a. The binary searches are
    sort.Search's loop. *)
Fixpoint symMerge (fuel a m b : nat) (l : list A) : list A :=
  match fuel with
  | 0 => l
  | S fuel =>
      if m - a =? 1 then
        let i := search_loop (b - m) (fun h => negb (less h a)) m b in
        bubble_up (i - 1 - a) a l
      else if b - m =? 1 then
        let i := search_loop (m - a) (fun h => less m h) a m in
        bubble_down (m - i) m l
      else
        let mid := (a + b) / 2 in
        let n := mid + m in
        let '(start0, r) := if mid <? m then (n - b, mid) else (a, m) in
        let p := n - 1 in
        let start := search_loop (r - start0) (fun c => less (p - c) c) start0 r in
        let en := n - start in
        let l := if (start <? m) && (m <? en) then rotate start m en l else l in
        let l := if (a <? start) && (start <? mid) then symMerge fuel a start mid l else l in
        if (mid <? en) && (en <? b) then symMerge fuel mid en b l else l
  end.

(** zfuncversion.go stable_func: sort blocks, then merge neighbouring blocks *)
Fixpoint sort_blocks (fuel block n a : nat) (l : list A) : list A :=
  match fuel with
  | 0 => l
  | S fuel =>
      if a + block <=? n then sort_blocks fuel block n (a + block) (insertionSort a (a + block) l)
      else insertionSort a n l
  end.
Fixpoint merge_blocks (fuel block n a : nat) (l : list A) : list A :=
  match fuel with
  | 0 => l
  | S fuel =>
      if a + 2 * block <=? n then merge_blocks fuel block n (a + 2 * block) (symMerge (2 * block) a (a + block) (a + 2 * block) l)
      else if a + block <? n then symMerge (n - a) a (a + block) n l
      else l
  end.
Fixpoint merge_rounds (fuel block n : nat) (l : list A) : list A :=
  match fuel with
  | 0 => l
  | S fuel => if block <? n then merge_rounds fuel (2 * block) n (merge_blocks (S n) block n 0 l) else l
  end.
Definition SliceStable (l : list A) : list A :=
  let n := length l in
  merge_rounds (S n) 20 n (sort_blocks (S n) 20 n 0 l).
End Sort.

(** completion.go:353-369 and 396-410: the scores are collected beside the
    items; the comparison reads them by position, and sorting exchanges items
    only *)
Definition orderItems {A} (items : list A) (scores : list Z) : list A :=
  SliceStable (fun i j => match nth_error scores i, nth_error scores j with Some x, Some y => (x <? y)%Z | _, _ => false end) items.
