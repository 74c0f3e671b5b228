(** analysis/wordtokeniser: splitting identifiers for the completion index.

    unicode.IsUpper and unicode.IsDigit are the parameters [is_upper] and
    [is_digit] (the Unicode tables are not modelled).  A slice expression out
    of bounds panics in Go: [None]. *)
From Coq Require Import String.
From Coq Require Import List Bool NArith Arith.
From Coq.Strings Require Import Byte.
From Verif Require Import Base.Bytes Base.Utf8.
Import ListNotations.
Open Scope list_scope.

Definition US : byte := x5f.      (* _ *)
Definition is_us (b : byte) : bool := byte_eqb b US.

(** Go's [s[i:j]] with its bounds check *)
Definition go_slice (s : gostr) (i j : nat) : option gostr :=
  if (i <=? j) && (j <=? length s) then Some (slice s i j) else None.

(** casing.go:13-19, the loop variables *)
Record cstate := CS {
  words : list gostr; lastClass : nat; start : nat; prev : nat;
  lastTokenIndex : nat; markNextAsStart : bool }.

Definition cinit : cstate := CS [] 0 0 0 0 false.

Section Casing.
  Variables is_upper is_digit : N -> bool.
  Variable name : gostr.

  (** 51-57 *)
  Definition class_of (r : N) : nat :=
    if is_upper r then 2 else if is_digit r then 3 else 1.

  (** 20-25 appendWord, with its argument name[i:j] evaluated first *)
  Definition append_word (st_start : nat) (ws : list gostr) (i j : nat) : option (list gostr) :=
    match go_slice name i j with
    | None => None
    | Some w => if st_start =? 0 then Some ws else Some (ws ++ [w])
    end.

  (** 26-78, one iteration *)
  Definition cstep (st : cstate) (ir : nat * N) : option cstate :=
    let '(i, r) := ir in
    if N.eqb r 95 then                                                   (* 27-35 *)
      let ws := if start st <? lastTokenIndex st
                then match go_slice name (start st) (lastTokenIndex st + 1) with
                     | Some w => Some (words st ++ [w])
                     | None => None
                     end
                else Some (words st) in
      match ws with
      | None => None
      | Some ws => Some (CS ws 0 (i + 1) (i + 1) (lastTokenIndex st) (markNextAsStart st))
      end
    else
      let start0 := if markNextAsStart st then i else start st in        (* 36-40 *)
      if N.eqb r RuneError then                                          (* 41-50 *)
        let ws := if (0 <? start0) && (start0 <? i)
                  then append_word start0 (words st) start0 i
                  else Some (words st) in
        match ws with
        | None => None
        | Some ws =>
            Some (CS ws (lastClass st)
                    (if length name <=? i + 1 then length name else start0)
                    (prev st) i true)
        end
      else
        let class := class_of r in
        if negb (lastClass st =? 0) && negb (class =? lastClass st) then  (* 58-74 *)
          if (lastClass st =? 2) && (class =? 1) then
            let ws := if negb (start0 =? prev st)
                      then append_word start0 (words st) start0 (prev st)
                      else Some (words st) in
            match ws with
            | None => None
            | Some ws => Some (CS ws class (prev st) i i false)
            end
          else
            match append_word start0 (words st) start0 i with
            | None => None
            | Some ws => Some (CS ws class i i i false)
            end
        else Some (CS (words st) class start0 i i false).

  Fixpoint cloop (st : cstate) (l : list (nat * N)) : option cstate :=
    match l with
    | [] => Some st
    | ir :: l' => match cstep st ir with
                  | None => None
                  | Some st' => cloop st' l'
                  end
    end.

  (** 13-83 *)
  Definition casing : option (list gostr) :=
    match cloop cinit (range_runes name) with
    | None => None
    | Some st =>
        if start st <? length name
        then append_word (start st) (words st) (start st) (length name)
        else Some (words st)
    end.
End Casing.

(** index.go:23-34 *)
Fixpoint remove_dup (seen : list gostr) (l : list gostr) : list gostr :=
  match l with
  | [] => []
  | x :: l' => if existsb (fun y => str_eqb y x) seen then remove_dup seen l'
               else x :: remove_dup (x :: seen) l'
  end.

(** index.go:6-17 *)
Definition Tokenise (is_upper is_digit : N -> bool) (name : gostr) : option (list gostr) :=
  let trimmed := trim_both is_us name in
  let base := name :: (if str_eqb trimmed name then [] else [trimmed]) in
  match casing is_upper is_digit name with
  | None => None
  | Some ws => Some (remove_dup [] (base ++ ws))
  end.
