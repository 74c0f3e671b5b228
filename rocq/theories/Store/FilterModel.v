(** analysis/filter/filter.go: the approximate membership filter kept per
    document by the reference index.  The xor filter itself
    (github.com/FastFilter/xorfilter) and xxhash are external packages and
    enter as parameters. *)
From Coq Require Import String.
From Coq Require Import List Bool ZArith.
From Coq.Strings Require Import Byte.
From Verif Require Import Base.Bytes Codec.CodecModel.
Import ListNotations.
Open Scope list_scope.
Open Scope dec_scope.

(** xorfilter.Xor8 *)
Record xor8 := Xor8 { x_seed : Z; x_blocklength : Z; x_fingerprints : gostr }.

Class XorFilter := {
  sum64 : gostr -> Z;                      (* xxhash.Sum64 *)
  populate : list Z -> option xor8;        (* xorfilter.Populate; None is (nil, err) *)
  xor_contains : xor8 -> Z -> bool         (* Xor8.Contains *)
}.

(** filter.go:14-20 (the mutex is not modelled: methods are atomic) *)
Record filter := Filter { fl_committed : bool; fl_head : option xor8; fl_buffer : list gostr }.

(** 23-28 *)
Definition NewFilter : filter := Filter false None [].
(** 31-34 *)
Definition Insert (f : filter) (data : gostr) : filter :=
  Filter (fl_committed f) (fl_head f) (fl_buffer f ++ [data]).

(** 125-129 sortByteArrays: sort.Slice, modelled by insertion sort *)
Fixpoint insert_sorted (x : gostr) (l : list gostr) : list gostr :=
  match l with
  | [] => [x]
  | y :: l' => if str_ltb y x then y :: insert_sorted x l' else x :: l
  end.
Definition sortByteArrays (l : list gostr) : list gostr := fold_right insert_sorted [] l.
(** 109-123 dataWithoutDup: sort, then drop neighbours equal to the last kept *)
Fixpoint drop_dup_neighbours (last : gostr) (l : list gostr) : list gostr :=
  match l with
  | [] => []
  | x :: l' => if str_eqb last x then drop_dup_neighbours last l' else x :: drop_dup_neighbours x l'
  end.
Definition dataWithoutDup (f : filter) : list gostr :=
  match sortByteArrays (fl_buffer f) with
  | [] => []
  | x :: l => x :: drop_dup_neighbours x l
  end.

Section Xor.
Context {X : XorFilter}.

(** 37-62 Commit: with nothing buffered only the flag changes; a Populate
    error leaves a nil head *)
Definition Commit (f : filter) : filter :=
  match dataWithoutDup f with
  | [] => Filter true (fl_head f) (fl_buffer f)
  | keys => Filter true (populate (map sum64 keys)) []
  end.

(** 64-71 Lookup: [None] is the error *)
Definition Lookup (f : filter) (data : gostr) : option bool :=
  if fl_committed f then
    match fl_head f with
    | Some h => Some (xor_contains h (sum64 data))
    | None => None
    end
  else None.
End Xor.

(** 74-85 Encode (the "not yet commited" error writes nothing, like a nil head) *)
Definition Encode (e : enc) (f : filter) : enc :=
  match fl_committed f, fl_head f with
  | true, Some h =>
      let e := WriteUInt64 e (x_seed h) in
      let e := WriteUInt32 e (x_blocklength h) in
      WriteBytes e (x_fingerprints h)
  | _, _ => e
  end.

(** 88-102 FilterDecode *)
Definition FilterDecode : dec filter := fun s =>
  match s with
  | [] => Some (Filter true None [], [])
  | _ => (seed <- ReadUInt64 ;; bl <- ReadUInt32 ;; fps <- ReadBytes ;;
          ret (Filter true (Some (Xor8 seed bl fps)) [])) s
  end.
