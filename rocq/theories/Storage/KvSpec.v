(** What users of a key/value store expect, without reference to its
    representation. *)
From Coq Require Import List Bool.
From Verif Require Import Base.Bytes Storage.KvModel.
Import ListNotations.

(** A history of elementary effects, oldest first. *)
Inductive effect := EPut (k v : gostr) | EDel (k : gostr) | EClear.

(** The value of [k] after the history: decided by the last effect concerning
    [k]. *)
Fixpoint value_at (h : list effect) (k : gostr) : option gostr :=
  match h with
  | [] => None
  | e :: h' =>
      (* does a later effect concern k? *)
      if existsb (fun e => match e with
                           | EPut k' _ | EDel k' => str_eqb k' k
                           | EClear => true end) h'
      then value_at h' k
      else match e with
           | EPut k' v => if str_eqb k' k then Some v else None
           | EDel _ => None
           | EClear => None
           end
  end.

Definition bop_effect (o : bop) : effect :=
  match o with BPut k v => EPut k v | BDel k => EDel k end.

(** the batch part / the direct part of what a callback does *)
Definition batch_part (acts : list cact) : list bop :=
  flat_map (fun a => match a with OnBatch o => [o] | OnDb _ => [] end) acts.
Definition direct_part (acts : list cact) : list bop :=
  flat_map (fun a => match a with OnBatch _ => [] | OnDb o => [o] end) acts.

(** The effects of an operation of the DB interface, for callbacks that only
    use the batch they are given. *)
Definition op_effects (o : dbop) : list effect :=
  match o with
  | DPut k v => [EPut k v]
  | DDelete k => [EDel k]
  | DClear => [EClear]
  | DWriteBatch acts true => map bop_effect (batch_part acts)
  | DWriteBatch acts false => []
  end.
Definition batch_only (o : dbop) : Prop :=
  match o with DWriteBatch acts _ => direct_part acts = [] | _ => True end.

(** ascending keys *)
Inductive ascending : list (gostr * gostr) -> Prop :=
| asc_nil : ascending []
| asc_one : forall e, ascending [e]
| asc_cons : forall a b l, str_ltb (fst a) (fst b) = true -> ascending (b :: l) -> ascending (a :: b :: l).

(** A scan callback that records the entries it is called with and decides
    from what it has seen whether to stop. *)
Definition recorder (stop : list (gostr * gostr) -> bool) (seen : list (gostr * gostr)) (k v : gostr)
  : list (gostr * gostr) * bool :=
  let seen' := seen ++ [(k, v)] in (seen', stop seen').

(** [visited], the sequence of calls, is an initial part of the matching
    entries listed in ascending key order; it is all of them unless the
    callback asked to stop, and no call follows a request to stop. *)
Definition scan_result (matching : gostr -> gostr -> Prop) (stop : list (gostr * gostr) -> bool)
  (visited : list (gostr * gostr)) : Prop :=
  exists all, ascending all
    /\ (forall k v, In (k, v) all <-> matching k v)
    /\ exists rest, all = visited ++ rest
        /\ (rest = [] \/ (visited <> [] /\ stop visited = true))
        /\ (forall before after, visited = before ++ after -> before <> [] -> after <> [] ->
              stop before = false).

(** The database as another reader sees it while a batch callback has done
    [acts] and has not yet returned. *)
Definition mem_during (m : memory) (acts : list cact) : memory :=
  snd (fold_left mem_cact acts (radix m, m)).
Definition ldb_during (d : leveldb) (acts : list cact) : leveldb :=
  snd (fold_left ldb_cact acts ([], d)).
