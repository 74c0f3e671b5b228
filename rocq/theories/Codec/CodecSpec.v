(** What a Go value of each written type can be: its machine range. *)
From Coq Require Import List ZArith.
From Verif Require Import Base.Bytes Base.Protocol Codec.CodecModel.
Import ListNotations.
Open Scope Z_scope.

Definition int64 (z : Z) : Prop := - 2 ^ 63 <= z < 2 ^ 63.
Definition uint64 (z : Z) : Prop := 0 <= z < 2 ^ 64.
Definition uint32 (z : Z) : Prop := 0 <= z < 2 ^ 32.
(** the length of a Go slice or string always fits an [int] *)
Definition go_len {A} (l : list A) : Prop := Z.of_nat (length l) < 2 ^ 63.
Definition pos_ok (p : position) : Prop := int64 (p_line p) /\ int64 (p_char p).
Definition loc_ok (l : location) : Prop :=
  go_len (l_uri l) /\ pos_ok (r_start (l_range l)) /\ pos_ok (r_end (l_range l)).

Definition val_ok (v : gval) : Prop :=
  match v with
  | VInt z => int64 z
  | VUInt64 z | VFloat64 z => uint64 z
  | VUInt32 z | VFloat32 z => uint32 z
  | VBytes b | VString b => go_len b
  | VBool _ => True
  | VPosition p => pos_ok p
  | VLocation l => loc_ok l
  end.

Definition type_of (v : gval) : gty :=
  match v with
  | VInt _ => TInt | VUInt64 _ => TUInt64 | VUInt32 _ => TUInt32
  | VFloat64 _ => TFloat64 | VFloat32 _ => TFloat32
  | VBytes _ => TBytes | VString _ => TString | VBool _ => TBool
  | VPosition _ => TPosition | VLocation _ => TLocation
  end.
