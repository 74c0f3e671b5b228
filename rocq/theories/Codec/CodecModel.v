(** analysis/storage/encoding.go: the binary encoder and decoder.

    An Encoder is its buffer; each Write appends to it.  A Decoder is the bytes
    not read yet; a read that would panic in Go (slice out of range) is [None].
    Simplification: a little-endian host with 64-bit [int] (the Go code copies
    native memory through unsafe pointers); floats are their IEEE bit patterns,
    because math.Float64bits/frombits are mutually inverse. *)
From Coq Require Import List Bool NArith ZArith Lia.
From Coq.Strings Require Import Byte.
From Verif Require Import Base.Bytes Base.Protocol.
Import ListNotations.
Open Scope Z_scope.

Definition byte_of_Z (z : Z) : byte :=
  match Byte.of_N (Z.to_N (z mod 256)) with Some b => b | None => x00 end.
Definition Z_of_byte (b : byte) : Z := Z.of_N (Byte.to_N b).

(** the [n] lowest bytes of a machine word, least significant first; Euclidean
    division by 256 yields two's complement for negative numbers *)
Fixpoint le (n : nat) (v : Z) : gostr :=
  match n with
  | O => []
  | S n' => byte_of_Z v :: le n' (v / 256)
  end.

Fixpoint le_val (s : gostr) : Z :=
  match s with
  | [] => 0
  | b :: s' => Z_of_byte b + 256 * le_val s'
  end.

Definition to_signed (n : nat) (u : Z) : Z :=
  if u <? 2 ^ (8 * Z.of_nat n - 1) then u else u - 2 ^ (8 * Z.of_nat n).

(** encoding.go:12-53 PutUInt64, PutUInt32, PutInt64, PutInt32 *)
Definition PutUInt64 (dst : gostr) (v : Z) : gostr := dst ++ le 8 v.
Definition PutUInt32 (dst : gostr) (v : Z) : gostr := dst ++ le 4 v.
Definition PutInt64 (dst : gostr) (v : Z) : gostr := dst ++ le 8 v.
Definition PutInt32 (dst : gostr) (v : Z) : gostr := dst ++ le 4 v.
(** encoding.go:56-63 PutFloat64, PutFloat32 (argument: bit pattern) *)
Definition PutFloat64 (dst : gostr) (bits : Z) : gostr := PutUInt64 dst bits.
Definition PutFloat32 (dst : gostr) (bits : Z) : gostr := PutUInt32 dst bits.

(** encoding.go:111-168 Encoder methods; the Encoder is its [buf] *)
Definition enc := gostr.
Definition NewEncoder : enc := [].                                   (* 106-108 *)
Definition WriteUInt64 (e : enc) (v : Z) : enc := PutUInt64 e v.     (* 111-113 *)
Definition WriteInt (e : enc) (v : Z) : enc := PutInt64 e v.         (* 116-118 *)
Definition WriteUInt32 (e : enc) (v : Z) : enc := PutUInt32 e v.     (* 121-123 *)
Definition WriteFloat64 (e : enc) (v : Z) : enc := PutFloat64 e v.   (* 126-128 *)
Definition WriteFloat32 (e : enc) (v : Z) : enc := PutFloat32 e v.   (* 131-133 *)
Definition WriteBytes (e : enc) (b : gostr) : enc :=                 (* 136-139 *)
  let e := WriteInt e (Z.of_nat (length b)) in e ++ b.
Definition WriteString (e : enc) (v : gostr) : enc := WriteBytes e v. (* 142-144 *)
Definition WriteBool (e : enc) (b : bool) : enc :=                   (* 147-153 *)
  e ++ [if b then x01 else x00].
Definition WritePosition (e : enc) (v : position) : enc :=           (* 156-159 *)
  let e := WriteInt e (p_line v) in WriteInt e (p_char v).
Definition WriteLocation (e : enc) (v : location) : enc :=           (* 162-166 *)
  let e := WriteString e (l_uri v) in
  let e := WritePosition e (r_start (l_range v)) in
  WritePosition e (r_end (l_range v)).

(** Decoder computations; [None] is a Go panic. *)
Definition dec (A : Type) := gostr -> option (A * gostr).
Definition ret {A} (a : A) : dec A := fun s => Some (a, s).
Definition bind {A C} (m : dec A) (k : A -> dec C) : dec C :=
  fun s => match m s with Some (a, s') => k a s' | None => None end.
Declare Scope dec_scope.
Delimit Scope dec_scope with dec.
Notation "x <- m ;; k" := (bind m (fun x => k)) (at level 61, m at next level, right associativity) : dec_scope.
Open Scope dec_scope.

(** encoding.go:66-84 ReadUInt64 .. ReadInt32 together with the re-slicing
    [d.buf[n:]] of the caller, which panics when fewer than [n] bytes are left *)
Definition read_word (n : nat) : dec Z := fun s =>
  if (length s <? n)%nat then None else Some (le_val (firstn n s), skipn n s).

Definition ReadInt : dec Z :=                                        (* 182-186 *)
  u <- read_word 8 ;; ret (to_signed 8 u).
Definition ReadUInt64 : dec Z := read_word 8.                        (* 189-193 *)
Definition ReadUInt32 : dec Z := read_word 4.                        (* 196-200 *)
Definition ReadFloat64 : dec Z := read_word 8.                       (* 203-207 *)
Definition ReadFloat32 : dec Z := read_word 4.                       (* 210-214 *)
(** encoding.go:217-222; [d.buf[:len]] and [d.buf[len:]] panic for a negative
    length or one that exceeds what is left *)
Definition ReadBytes : dec gostr :=
  len <- ReadInt ;;
  fun s => if (len <? 0) || (Z.of_nat (length s) <? len) then None
           else Some (firstn (Z.to_nat len) s, skipn (Z.to_nat len) s).
Definition ReadString : dec gostr := ReadBytes.                      (* 225-227 *)
Definition ReadBool : dec bool := fun s =>                           (* 230-234 *)
  match s with
  | [] => None
  | b :: s' => Some (negb (byte_eqb b x00), s')
  end.
Definition ReadPosition : dec position :=                            (* 237-242 *)
  l <- ReadInt ;; c <- ReadInt ;; ret (Pos l c).
Definition ReadLocation : dec location :=                            (* 245-253 *)
  u <- ReadString ;; a <- ReadPosition ;; b <- ReadPosition ;;
  ret (Loc u (Rng a b)).

(** A heterogeneous sequence of writes and of reads. *)
Inductive gval :=
| VInt (z : Z) | VUInt64 (z : Z) | VUInt32 (z : Z)
| VFloat64 (bits : Z) | VFloat32 (bits : Z)
| VBytes (b : gostr) | VString (s : gostr) | VBool (b : bool)
| VPosition (p : position) | VLocation (l : location).

Inductive gty :=
| TInt | TUInt64 | TUInt32 | TFloat64 | TFloat32
| TBytes | TString | TBool | TPosition | TLocation.

Definition write_val (e : enc) (v : gval) : enc :=
  match v with
  | VInt z => WriteInt e z
  | VUInt64 z => WriteUInt64 e z
  | VUInt32 z => WriteUInt32 e z
  | VFloat64 z => WriteFloat64 e z
  | VFloat32 z => WriteFloat32 e z
  | VBytes b => WriteBytes e b
  | VString s => WriteString e s
  | VBool b => WriteBool e b
  | VPosition p => WritePosition e p
  | VLocation l => WriteLocation e l
  end.

Definition read_val (t : gty) : dec gval :=
  match t with
  | TInt => z <- ReadInt ;; ret (VInt z)
  | TUInt64 => z <- ReadUInt64 ;; ret (VUInt64 z)
  | TUInt32 => z <- ReadUInt32 ;; ret (VUInt32 z)
  | TFloat64 => z <- ReadFloat64 ;; ret (VFloat64 z)
  | TFloat32 => z <- ReadFloat32 ;; ret (VFloat32 z)
  | TBytes => z <- ReadBytes ;; ret (VBytes z)
  | TString => z <- ReadString ;; ret (VString z)
  | TBool => z <- ReadBool ;; ret (VBool z)
  | TPosition => z <- ReadPosition ;; ret (VPosition z)
  | TLocation => z <- ReadLocation ;; ret (VLocation z)
  end.

Definition write_all (e : enc) (vs : list gval) : enc := fold_left write_val vs e.

Fixpoint read_all (ts : list gty) : dec (list gval) :=
  match ts with
  | [] => ret []
  | t :: ts' => v <- read_val t ;; vs <- read_all ts' ;; ret (v :: vs)
  end.

(** [for i := 0; i < n; i++ { l = append(l, Read(d)) }] *)
Fixpoint read_times {A} (r : dec A) (n : nat) : dec (list A) :=
  match n with
  | O => ret []
  | S n' => a <- r ;; l <- read_times r n' ;; ret (a :: l)
  end.
Definition read_list {A} (r : dec A) : dec (list A) :=
  n <- ReadInt ;; read_times r (Z.to_nat n).
(** [e.WriteInt(len(l)); for _, x := range l { x.Write(e) }] *)
Definition write_list {A} (w : enc -> A -> enc) (e : enc) (l : list A) : enc :=
  fold_left w l (WriteInt e (Z.of_nat (length l))).
