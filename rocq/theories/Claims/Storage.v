(** Claims about the key/value stores (analysis/storage). *)
From Coq Require Import String.
From Coq Require Import List Bool.
From Coq.Strings Require Import Byte.
From Verif Require Import Base.Bytes Storage.KvModel Storage.KvSpec Storage.KvProofs.
Import ListNotations.
Open Scope list_scope.

Definition ex_ops : list dbop :=
  [ DPut (B "a") (B "1"); DPut (B "ab") (B "2"); DDelete (B "a");
    DWriteBatch [OnBatch (BPut (B "abc") (B "3")); OnBatch (BDel (B "ab"))] false;
    DWriteBatch [OnBatch (BPut (B "b") (B "4")); OnBatch (BPut (B "a") (B "5"))] true ].

(** ** C04 the in-memory database is a map *)
Theorem C04_memory_is_a_map : forall (history : list dbop) (k : gostr),
  Forall batch_only history ->
  mem_Get (fold_left mem_step history NewMemory) k = value_at (flat_map op_effects history) k.
Proof. exact mem_history. Qed.
Print Assumptions C04_memory_is_a_map.

(** the same for the LevelDB-backed store *)
Theorem C04_leveldb_is_a_map : forall (history : list dbop) (k : gostr),
  Forall batch_only history ->
  ldb_Get (fold_left ldb_step history (LevelDB [])) k = value_at (flat_map op_effects history) k.
Proof. intros. rewrite ldb_history_gen by assumption. now rewrite value_at_fold. Qed.
Print Assumptions C04_leveldb_is_a_map.

Example C04_hypotheses_met :
  Forall batch_only ex_ops
  /\ mem_Get (fold_left mem_step ex_ops NewMemory) (B "a") = Some (B "5")
  /\ mem_Get (fold_left mem_step ex_ops NewMemory) (B "ab") = Some (B "2")
  /\ mem_Get (fold_left mem_step ex_ops NewMemory) (B "abc") = None.
Proof. split; [repeat constructor|vm_compute; auto]. Qed.

(** ** C05 batches *)
Theorem C05_failed_batch_changes_nothing : forall (m : memory) (d : leveldb) acts,
  batch_only (DWriteBatch acts false) ->
  mem_WriteBatch m acts false = m /\ ldb_WriteBatch d acts false = d.
Proof.
  intros m d acts H. simpl in H. rewrite mem_WriteBatch_eq, ldb_WriteBatch_eq, H. destruct m, d; auto.
Qed.
Print Assumptions C05_failed_batch_changes_nothing.

(** [as_ops] turns the batched puts and deletes into single operations *)
Theorem C05_committed_batch_is_sequential : forall (m : memory) (d : leveldb) acts,
  batch_only (DWriteBatch acts true) ->
  mem_WriteBatch m acts true = fold_left mem_step (as_ops (batch_part acts)) m
  /\ ldb_WriteBatch d acts true = fold_left ldb_step (as_ops (batch_part acts)) d.
Proof.
  intros m d acts H. simpl in H. rewrite mem_WriteBatch_eq, ldb_WriteBatch_eq, H, mem_as_ops, ldb_as_ops. auto.
Qed.
Print Assumptions C05_committed_batch_is_sequential.

(** whatever part [acts] of its work the callback has done *)
Theorem C05_batch_invisible_until_done : forall (m : memory) (d : leveldb) acts,
  batch_only (DWriteBatch acts true) ->
  mem_during m acts = m /\ ldb_during d acts = d.
Proof.
  intros m d acts H. simpl in H. rewrite mem_during_eq, ldb_during_eq, H. destruct m, d; auto.
Qed.
Print Assumptions C05_batch_invisible_until_done.

Example C05_hypotheses_met :
  let acts := [OnBatch (BPut (B "abc") (B "3")); OnBatch (BDel (B "ab"))] in
  batch_only (DWriteBatch acts false) /\ batch_only (DWriteBatch acts true)
  /\ batch_part acts = [BPut (B "abc") (B "3"); BDel (B "ab")].
Proof. simpl. auto. Qed.

(** ** C06 prefix scans, from any reachable content *)
Theorem C06_memory_scan : forall (history : list dbop) (prefix : gostr) stop,
  let m := fold_left mem_step history NewMemory in
  scan_result (fun k v => has_prefix prefix k = true /\ mem_Get m k = Some v) stop
    (mem_PrefixStream (recorder stop) m prefix []).
Proof.
  intros history prefix stop m. apply scan_of_filter. apply mem_reach_ascending.
Qed.
Print Assumptions C06_memory_scan.

Theorem C06_leveldb_scan : forall (history : list dbop) (prefix : gostr) stop,
  let d := fold_left ldb_step history (LevelDB []) in
  scan_result (fun k v => has_prefix prefix k = true /\ ldb_Get d k = Some v) stop
    (ldb_PrefixStream (recorder stop) d prefix []).
Proof.
  intros history prefix stop d. rewrite ldb_PrefixStream_eq. apply scan_of_filter.
  apply ldb_reach_ascending. constructor.
Qed.
Print Assumptions C06_leveldb_scan.

(** the prefix "\xff" has no upper bound in LevelDB's key range *)
Example C06_hypotheses_met :
  ldb_PrefixStream (recorder (fun _ => false))
    (fold_left ldb_step (DPut [xff; x01] (B "x") :: ex_ops) (LevelDB [])) [xff] [] = [([xff; x01], B "x")]
  /\ mem_PrefixStream (recorder (fun seen => Nat.leb 2 (List.length seen)))
       (fold_left mem_step (DPut (B "ac") (B "x") :: ex_ops) NewMemory) (B "a") []
     = [(B "a", B "5"); (B "ab", B "2")].
Proof. vm_compute. auto. Qed.

(** ** C07 the combined store *)
Theorem C07_read_precedence : forall (c : combined) (k : gostr),
  (forall v, comb_Get c ModeMemory k = Some v -> comb_GetFromAll c k = Some v)
  /\ (comb_Get c ModeMemory k = None -> comb_GetFromAll c k = comb_Get c ModeDisk k).
Proof.
  intros [m [d|]] k; unfold comb_Get, comb_GetFromAll; simpl; split; intros;
    destruct (mem_Get m k); congruence.
Qed.
Print Assumptions C07_read_precedence.

Theorem C07_memory_mode_never_writes_disk : forall (ops : list dbop) (c : combined) d,
  c_disk c = Some d ->
  forall k, comb_Get (fold_left (fun c o => comb_step c ModeMemory o) ops c) ModeDisk k = comb_Get c ModeDisk k.
Proof.
  intros ops c d H k. unfold comb_Get. rewrite comb_mem_mode_disk_run, H. reflexivity.
Qed.
Print Assumptions C07_memory_mode_never_writes_disk.

(** a full scan of both stores reports the memory entries, then the disk ones *)
Theorem C07_scan_from_all : forall (c : combined) (prefix k v : gostr),
  ascending (radix (c_mem c)) -> (forall d, c_disk c = Some d -> ascending (ldb d)) ->
  (In (k, v) (comb_PrefixStreamFromAll (recorder (fun _ => false)) c prefix []) <->
   has_prefix prefix k = true /\
   (mem_Get (c_mem c) k = Some v \/ exists d, c_disk c = Some d /\ ldb_Get d k = Some v)).
Proof.
  intros c prefix k v Hm Hd. rewrite comb_scan_all. simpl. rewrite in_app_iff, filter_In. simpl.
  unfold mem_Get. rewrite kv_get_in by assumption.
  destruct (c_disk c) as [d|] eqn:E.
  - rewrite filter_In. simpl. rewrite <- (kv_get_in (ldb d)) by auto.
    split; [|intros [P [A|(d' & A & G)]]]; [intros [[A P]|[A P]]; split; auto; right; exists d; auto|auto|].
    injection A as <-. auto.
  - split; [intros [[A P]|[]]; auto|]. intros [P [A|(d' & A & G)]]; [auto|discriminate].
Qed.
Print Assumptions C07_scan_from_all.

Example C07_hypotheses_met :
  let c := fold_left (fun c o => comb_step c ModeMemory o) ex_ops (Combined NewMemory (Some (LevelDB [(B "z", B "9")]))) in
  comb_GetFromAll c (B "a") = Some (B "5") /\ comb_GetFromAll c (B "z") = Some (B "9")
  /\ comb_Get c ModeMemory (B "z") = None.
Proof. vm_compute. auto. Qed.

(** ** C56 the memory and the disk store are interchangeable *)
Theorem C56_memory_and_leveldb_agree_partial : forall history,
  Forall batch_only history ->
  radix (fold_left mem_step history NewMemory) = ldb (fold_left ldb_step history (LevelDB [])).
Proof. exact mem_ldb_same_content. Qed.
Print Assumptions C56_memory_and_leveldb_agree_partial.

(** The full statement, for callbacks that also write to the database
    directly (as FinishIndexing does), is false: the memory store loses the
    direct write when the batch commits. *)
Theorem C56_interchangeable_refuted :
  exists history k,
    mem_Get (fold_left mem_step history NewMemory) k <> ldb_Get (fold_left ldb_step history (LevelDB [])) k.
Proof.
  exists [DPut (B "doc") (B "1"); DWriteBatch [OnDb (BDel (B "doc"))] true], (B "doc").
  vm_compute. discriminate.
Qed.
Print Assumptions C56_interchangeable_refuted.

Example C56_hypotheses_met : Forall batch_only ex_ops /\ radix (fold_left mem_step ex_ops NewMemory) <> [].
Proof. split; [repeat constructor|vm_compute; discriminate]. Qed.
