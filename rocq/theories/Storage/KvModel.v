(** analysis/storage: the ordered key/value stores.

    [kv] is the content of a store: an association list kept in ascending byte
    order of keys.  It stands both for the immutable radix tree of memory.go
    (github.com/hashicorp/go-immutable-radix: an ordered map whose iterator
    yields keys in byte order) and for the LevelDB content (bytewise comparer).
    The trees themselves are external packages and are not modelled. *)
From Coq Require Import List Bool NArith.
From Coq.Strings Require Import Byte.
From Verif Require Import Base.Bytes.
Import ListNotations.

Definition kv := list (gostr * gostr).

Definition kv_empty : kv := [].

Fixpoint kv_get (m : kv) (k : gostr) : option gostr :=
  match m with
  | [] => None
  | (k', v) :: m' => if str_eqb k' k then Some v else kv_get m' k
  end.

(** ordered insertion, replacing the value of an existing key *)
Fixpoint kv_put (m : kv) (k v : gostr) : kv :=
  match m with
  | [] => [(k, v)]
  | (k', v') :: m' =>
      if str_ltb k k' then (k, v) :: m
      else if str_eqb k k' then (k, v) :: m'
      else (k', v') :: kv_put m' k v
  end.

Definition kv_del (m : kv) (k : gostr) : kv :=
  filter (fun e => negb (str_eqb (fst e) k)) m.

(** storage/main.go:14-17 the operations of a Batch *)
Inductive bop := BPut (k v : gostr) | BDel (k : gostr).

Definition apply_bop (m : kv) (o : bop) : kv :=
  match o with
  | BPut k v => kv_put m k v
  | BDel k => kv_del m k
  end.
Definition apply_bops (m : kv) (os : list bop) : kv := fold_left apply_bop os m.

(** What a WriteBatch callback does: operations on the batch it is handed,
    interleaved with operations made directly on the database (as
    Store.FinishIndexing does, store.go:476-483), then success or an error. *)
Inductive cact := OnBatch (o : bop) | OnDb (o : bop).

(** Operations of the DB interface that change state (main.go:19-27). *)
Inductive dbop :=
| DPut (k v : gostr)
| DDelete (k : gostr)
| DClear
| DWriteBatch (acts : list cact) (ok : bool).

(** ** memory.go *)
Record memory := Memory { radix : kv }.

Definition NewMemory : memory := Memory kv_empty.                       (* 16-20 *)
Definition mem_Clear (m : memory) : memory := Memory kv_empty.          (* 22-24 *)
Definition mem_Delete (m : memory) (k : gostr) : memory :=              (* 28-31 *)
  Memory (kv_del (radix m) k).
Definition mem_Put (m : memory) (k v : gostr) : memory :=               (* 33-36 *)
  Memory (kv_put (radix m) k v).
(** 38-46: [None] is the "Key not found" error.  (Values are always []byte.) *)
Definition mem_Get (m : memory) (k : gostr) : option gostr := kv_get (radix m) k.

(** 48-55 and 69-85: the batch is a transaction [txn] on the tree as it was at
    the start; [m.radix] itself is only touched by direct operations; commit
    replaces [m.radix] by the transaction's tree. *)
Definition mem_cact (st : kv * memory) (a : cact) : kv * memory :=
  match a with
  | OnBatch o => (apply_bop (fst st) o, snd st)
  | OnDb (BPut k v) => (fst st, mem_Put (snd st) k v)
  | OnDb (BDel k) => (fst st, mem_Delete (snd st) k)
  end.
Definition mem_WriteBatch (m : memory) (acts : list cact) (ok : bool) : memory :=
  let '(txn, m') := fold_left mem_cact acts (radix m, m) in
  if ok then Memory txn else m'.

Definition mem_step (m : memory) (o : dbop) : memory :=
  match o with
  | DPut k v => mem_Put m k v
  | DDelete k => mem_Delete m k
  | DClear => mem_Clear m
  | DWriteBatch acts ok => mem_WriteBatch m acts ok
  end.

(** ** goleveldb.go (the LevelDB handle is its content; I/O errors are not
    modelled) *)
Record leveldb := LevelDB { ldb : kv }.
Definition ldb_Delete (d : leveldb) (k : gostr) : leveldb := LevelDB (kv_del (ldb d) k).  (* 33-35 *)
Definition ldb_Put (d : leveldb) (k v : gostr) : leveldb := LevelDB (kv_put (ldb d) k v). (* 37-39 *)
Definition ldb_Get (d : leveldb) (k : gostr) : option gostr := kv_get (ldb d) k.          (* 41-43 *)

(** 45-52, 71-73, 127-145: operations are queued in [wb] and written on top of
    whatever the database holds at commit time *)
Definition ldb_cact (st : list bop * leveldb) (a : cact) : list bop * leveldb :=
  match a with
  | OnBatch o => (fst st ++ [o], snd st)
  | OnDb (BPut k v) => (fst st, ldb_Put (snd st) k v)
  | OnDb (BDel k) => (fst st, ldb_Delete (snd st) k)
  end.
Definition ldb_WriteBatch (d : leveldb) (acts : list cact) (ok : bool) : leveldb :=
  let '(wb, d') := fold_left ldb_cact acts ([], d) in
  if ok then LevelDB (apply_bops (ldb d') wb) else d'.

(** ** Prefix scans.  A callback is a state transformer that also says whether
    it called [Stop] on the iterator. *)
Section Stream.
  Context {S : Type}.
  Variable onData : S -> gostr -> gostr -> S * bool.

  (** the loop [for ; it.valid(); it.next() { onData(it) }] over the entries
      the iterator will yield: memory.go:57-61, 116-145, goleveldb.go:54-60,
      94-103, 123-125 *)
  Fixpoint stream (es : list (gostr * gostr)) (s : S) : S :=
    match es with
    | [] => s
    | (k, v) :: es' =>
        let '(s', stop) := onData s k v in
        if stop then s' else stream es' s'
    end.

  (** memory.go:97-106: SeekPrefix positions the radix iterator on the subtree
      of keys that start with the prefix *)
  Definition mem_PrefixStream (m : memory) (prefix : gostr) (s : S) : S :=
    stream (filter (fun e => has_prefix prefix (fst e)) (radix m)) s.
End Stream.

(** goleveldb/leveldb/util.BytesPrefix: the half-open key range of a prefix;
    [None] as limit means unbounded. *)
Definition succ_byte (b : byte) : option byte := Byte.of_N (Byte.to_N b + 1).
Fixpoint prefix_limit (rp : list byte) : option gostr :=  (* reversed prefix *)
  match rp with
  | [] => None
  | c :: rp' => match succ_byte c with
                | Some c' => Some (rev (c' :: rp'))
                | None => prefix_limit rp'
                end
  end.
Definition in_key_range (start : gostr) (limit : option gostr) (k : gostr) : bool :=
  negb (str_ltb k start) &&
  match limit with None => true | Some l => str_ltb k l end.

(** goleveldb.go:54-60, 83-92: an empty prefix scans everything *)
Definition ldb_PrefixStream {S} (onData : S -> gostr -> gostr -> S * bool)
  (d : leveldb) (prefix : gostr) (s : S) : S :=
  match prefix with
  | [] => stream onData (ldb d) s
  | _ => stream onData
           (filter (fun e => in_key_range prefix (prefix_limit (rev prefix)) (fst e)) (ldb d)) s
  end.

(** goleveldb.go:62-69 Clear: a batch deleting every scanned key *)
Definition ldb_Clear (d : leveldb) : leveldb :=
  let dels := ldb_PrefixStream (fun acc k _ => (acc ++ [BDel k], false)) d [] [] in
  ldb_WriteBatch d (map OnBatch dels) true.

Definition ldb_step (d : leveldb) (o : dbop) : leveldb :=
  match o with
  | DPut k v => ldb_Put d k v
  | DDelete k => ldb_Delete d k
  | DClear => ldb_Clear d
  | DWriteBatch acts ok => ldb_WriteBatch d acts ok
  end.

(** ** main.go: Combined.  [c_disk = None] is the memory-only variant. *)
Record combined := Combined { c_mem : memory; c_disk : option leveldb }.
Inductive dbmode := ModeMemory | ModeDisk.                              (* 38-43 *)

(** 69-74 mode: in the memory-only variant every mode is the memory *)
Definition comb_step (c : combined) (mode : dbmode) (o : dbop) : combined :=
  match c_disk c, mode with
  | Some d, ModeDisk => Combined (c_mem c) (Some (ldb_step d o))
  | _, _ => Combined (mem_step (c_mem c) o) (c_disk c)
  end.
Definition comb_Get (c : combined) (mode : dbmode) (k : gostr) : option gostr :=  (* 88-90 *)
  match c_disk c, mode with
  | Some d, ModeDisk => ldb_Get d k
  | _, _ => mem_Get (c_mem c) k
  end.
Definition comb_GetFromAll (c : combined) (k : gostr) : option gostr :=           (* 92-99 *)
  match mem_Get (c_mem c) k with
  | Some v => Some v
  | None => match c_disk c with
            | Some d => ldb_Get d k
            | None => None
            end
  end.
(** 105-109: a Stop only ends the scan of the current store *)
Definition comb_PrefixStreamFromAll {S} (onData : S -> gostr -> gostr -> S * bool)
  (c : combined) (prefix : gostr) (s : S) : S :=
  let s' := mem_PrefixStream onData (c_mem c) prefix s in
  match c_disk c with
  | Some d => ldb_PrefixStream onData d prefix s'
  | None => s'
  end.
