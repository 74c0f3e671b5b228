(** Claims about several files being indexed at the same time, and about kills
    of the server while it is indexing. *)
From Coq Require Import String.
From Coq Require Import List Bool NArith ZArith Lia.
From Coq.Strings Require Import Byte.
From Verif Require Import Base.Bytes Base.BytesProofs Base.Protocol Symbols.Symbols Symbols.KeysModel
  Storage.KvModel Store.FilterModel Store.StoreModel Store.StoreSpec Store.StoreTheorems
  Store.WorldModel Store.WorldProofs Store.WorldTheorems Store.WorldExamples Store.Examples.
Import ListNotations.
Open Scope list_scope.

(** ** C67 concurrent indexing *)
(** At every moment of every interleaving, a look-up returns exactly the
    declarations of the files as left by the completed operations, taken in
    the order of their completion; what is still under way does not show.
    Not covered: two synchronisations of the same file overlapping. *)
Theorem C67_concurrent_indexing_partial : forall (T : Text) (X : XorFilter) root w q,
  text_ok T -> reachable False root w -> w_cut w = [] ->
  (forall n, In n (query_names q) -> ~ In NUL n) -> covered (map EvSync (w_seen w)) q ->
  exists l, ask (w_store w) q = Some l /\ exactly shown (fun s => current (w_done w) s /\ wanted q s) l.
Proof. intros T X root w q TOK. now apply world_exact. Qed.
Print Assumptions C67_concurrent_indexing_partial.

(** The answers are those of a store that did the same work one file after
    the other. *)
Theorem C67_as_if_one_by_one_partial : forall (T : Text) (X : XorFilter) root w q st,
  text_ok T -> reachable False root w -> w_cut w = [] ->
  (forall n, In n (query_names q) -> ~ In NUL n) -> covered (map EvSync (w_seen w)) q ->
  run root (w_done w) = Some st ->
  exists l l', ask (w_store w) q = Some l /\ ask st q = Some l'
    /\ NoDup l /\ NoDup l' /\ forall x, In x l <-> In x l'.
Proof. intros T X root w q st TOK. now apply world_serial. Qed.
Print Assumptions C67_as_if_one_by_one_partial.

(** No interleaving blocks or breaks an operation: any file can be
    synchronised, any deleted, and the server can always be started again. *)
Theorem C67_never_stuck_partial : forall (T : Text) (X : XorFilter) root w,
  text_ok T -> xor_ok X -> reachable False root w ->
  (forall d, encoded_doc d -> exists es, sync_effects (w_store w) d = Some es)
  /\ (forall u, exists st', DeleteDocument (w_store w) u = Some st')
  /\ exists st', NewStore (s_uri (w_store w)) (s_db (w_store w)) (s_com (w_store w)) (s_greb (w_store w)) = Some st'.
Proof.
  intros T X root w TOK XOK R. split; [|split].
  - intros d E. exact (start_total root w d R E).
  - intros u. exact (delete_total root w u R).
  - exact (kill_recovers XOK root w R).
Qed.
Print Assumptions C67_never_stuck_partial.

(** the parts of a final state the examples look at *)
Definition summary (q : query) (w : world) :=
  (w_done w, List.length (w_running w), w_cut w, option_map (map symbol_uri) (ask (w_store w) q)).
Lemma summary_inv : forall overlap l q a b c d, option_map (summary q) (drive overlap (new_world root_uri) l) = Some (a, b, c, d) ->
  exists w, drive overlap (new_world root_uri) l = Some w /\ w_done w = a /\ List.length (w_running w) = b /\ w_cut w = c
    /\ option_map (map symbol_uri) (ask (w_store w) q) = d.
Proof.
  intros overlap l q a b c d H. destruct (drive overlap (new_world root_uri) l) as [w|]; [|discriminate].
  exists w. unfold summary in H. cbn [option_map] in H. injection H as <- <- <- <-. auto.
Qed.

(** When two synchronisations of one file overlap (an edit notification and
    the folder indexing: workspaceStore.go:51-75 and 240-256 do not share a
    lock), symbols can be left behind for good: here the file is deleted after
    both have finished, and its method is still found. *)
Definition race : list act :=
  [AStart doc_a] ++ writes 0 1 ++ [AStart doc_a2] ++ writes 1 5 ++ writes 0 4 ++ [ADelete uri_a].
Lemma race_ok : Forall act_ok race.
Proof.
  unfold race, writes. cbn [app repeat].
  repeat (constructor; [first [exact Logic.I|exact doc_a_ok|exact doc_a2_ok|cbn [act_ok]; unfold uri_a; not_in]|]). constructor.
Qed.
Lemma nothing_left : forall d1 d2 s, d_uri d1 = uri_a -> d_uri d2 = uri_a -> ~ current [EvSync d1; EvSync d2; EvDelete uri_a] s.
Proof.
  intros d1 d2 s E1 E2 (u & d & L & _). unfold latest in L. cbn [fold_left] in L. rewrite E1, E2 in L. destruct (str_eqb uri_a u); discriminate.
Qed.
Theorem C67_same_file_refuted : exists w l s,
  reachable True root_uri w /\ w_running w = [] /\ w_cut w = []
  /\ ask (w_store w) (QMethod (B "\App\Shop") (B "sell")) = Some l /\ In s l
  /\ forall s', ~ current (w_done w) s'.
Proof.
  destruct (summary_inv true race (QMethod (B "\App\Shop") (B "sell"))
    [EvSync doc_a2; EvSync doc_a; EvDelete uri_a] 0%nat [] (Some [uri_a])) as (w & E & D1 & D2 & D3 & D4); [vm_compute; reflexivity|].
  assert (R := drive_overlap root_uri race w race_ok E). clear E.
  destruct (ask (w_store w) (QMethod (B "\App\Shop") (B "sell"))) as [[|s l]|] eqn:A; try discriminate D4.
  exists w, (s :: l), s. split; [exact R|]. split; [now apply length_zero_iff_nil|]. split; [exact D3|]. split; [exact A|]. split; [left; reflexivity|].
  rewrite D1. intros s'. now apply nothing_left.
Qed.
Print Assumptions C67_same_file_refuted.

(** Two files synchronised with interleaved writes, a third operation between. *)
Definition side_by_side : list act :=
  [AStart doc_a; AStart doc_b] ++ writes 1 2 ++ writes 0 3 ++ writes 1 3 ++ writes 0 2 ++ [AStart doc_a2] ++ writes 0 2.
Lemma side_by_side_ok : Forall act_ok side_by_side.
Proof.
  unfold side_by_side, writes. cbn [app repeat].
  repeat (constructor; [first [exact Logic.I|exact doc_a_ok|exact doc_b_ok|exact doc_a2_ok]|]). constructor.
Qed.
Example C67_hypotheses_met : exists w l s, reachable False root_uri w /\ w_cut w = []
  /\ List.length (w_running w) = 1%nat /\ w_done w = [EvSync doc_b; EvSync doc_a]
  /\ covered (map EvSync (w_seen w)) (QMethod (B "\App\Shop") (B "sell"))
  /\ ask (w_store w) (QMethod (B "\App\Shop") (B "sell")) = Some l /\ l = [s] /\ symbol_uri s = uri_a
  /\ (forall n, In n (query_names (QMethod (B "\App\Shop") (B "sell"))) -> ~ In NUL n)
  /\ exists st, run root_uri (w_done w) = Some st.
Proof.
  destruct (summary_inv false side_by_side (QMethod (B "\App\Shop") (B "sell"))
    [EvSync doc_b; EvSync doc_a] 1%nat [] (Some [uri_a])) as (w & E & D1 & D2 & D3 & D4); [vm_compute; reflexivity|].
  assert (R := drive_apart root_uri side_by_side w side_by_side_ok E). clear E.
  destruct (ask (w_store w) (QMethod (B "\App\Shop") (B "sell"))) as [[|s [|? ?]]|] eqn:A; try discriminate D4.
  exists w, [s], s. split; [exact R|]. split; [exact D3|]. split; [exact D2|]. split; [exact D1|]. split; [exact Logic.I|].
  split; [exact A|]. split; [reflexivity|]. split; [cbn [option_map map] in D4; injection D4 as ->; reflexivity|].
  split; [intros n [<-|[<-|[]]]; not_in|]. rewrite D1. eexists. vm_compute. reflexivity.
Qed.

(** ** C68 kills while indexing *)
(** However often and whenever the server is killed, every declaration of the
    files as last completely indexed is found; anything else that is found
    comes from an earlier version of a file whose indexing a kill cut off. *)
Theorem C68_kill_while_indexing_partial : forall (T : Text) (X : XorFilter) root w q,
  text_ok T -> reachable False root w ->
  (forall n, In n (query_names q) -> ~ In NUL n) -> covered (map EvSync (w_seen w)) q ->
  exists l, ask (w_store w) q = Some l /\ NoDup l
   /\ (forall x, In x l -> exists s, wanted q s /\ shown s x
        /\ (current (w_done w) s
            \/ (In (symbol_uri s) (w_cut w) /\ exists d, In (EvSync d) (w_done w) /\ declares d s)))
   /\ (forall s, current (w_done w) s -> wanted q s -> exists x, In x l /\ shown s x).
Proof. intros T X root w q TOK. now apply world_answers. Qed.
Print Assumptions C68_kill_while_indexing_partial.

(** What the edit removed can stay for ever: the list of the file's keys
    (store.go:451-460) is written before the batch that removes the old keys. *)
Definition cut_off : list act :=
  [AStart doc_a] ++ writes 0 5 ++ [AStart doc_a2] ++ writes 0 3 ++ [AKill; AStart doc_a2] ++ writes 0 5 ++ [ADelete uri_a].
Lemma cut_off_ok : Forall act_ok cut_off.
Proof.
  unfold cut_off, writes. cbn [app repeat].
  repeat (constructor; [first [exact Logic.I|exact doc_a_ok|exact doc_a2_ok|cbn [act_ok]; unfold uri_a; not_in]|]). constructor.
Qed.
Theorem C68_stale_symbols_refuted : exists w l s,
  reachable False root_uri w /\ w_running w = []
  /\ ask (w_store w) (QMethod (B "\App\Shop") (B "sell")) = Some l /\ In s l
  /\ forall s', ~ current (w_done w) s'.
Proof.
  destruct (summary_inv false cut_off (QMethod (B "\App\Shop") (B "sell"))
    [EvSync doc_a; EvRestart; EvSync doc_a2; EvDelete uri_a] 0%nat [uri_a] (Some [uri_a])) as (w & E & D1 & D2 & D3 & D4); [vm_compute; reflexivity|].
  assert (R := drive_apart root_uri cut_off w cut_off_ok E). clear E.
  destruct (ask (w_store w) (QMethod (B "\App\Shop") (B "sell"))) as [[|s l]|] eqn:A; try discriminate D4.
  exists w, (s :: l), s. split; [exact R|]. split; [now apply length_zero_iff_nil|]. split; [exact A|]. split; [left; reflexivity|].
  rewrite D1. intros s' (u & d & L & _). unfold latest in L. cbn [fold_left] in L.
  change (d_uri doc_a) with uri_a in L. change (d_uri doc_a2) with uri_a in L. destruct (str_eqb uri_a u); discriminate.
Qed.
Print Assumptions C68_stale_symbols_refuted.

Definition killed_twice : list act :=
  [AStart doc_a; AStart doc_b] ++ writes 1 5 ++ writes 0 3 ++ [AKill; AStart doc_a] ++ writes 0 5 ++ [AStart doc_a2] ++ writes 0 4 ++ [AKill].
Lemma killed_twice_ok : Forall act_ok killed_twice.
Proof.
  unfold killed_twice, writes. cbn [app repeat].
  repeat (constructor; [first [exact Logic.I|exact doc_a_ok|exact doc_b_ok|exact doc_a2_ok]|]). constructor.
Qed.
Example C68_hypotheses_met : exists w l s, reachable False root_uri w
  /\ w_done w = [EvSync doc_b; EvRestart; EvSync doc_a; EvRestart] /\ w_cut w = [uri_a; uri_a]
  /\ covered (map EvSync (w_seen w)) (QMethod (B "\App\Shop") (B "sell"))
  /\ ask (w_store w) (QMethod (B "\App\Shop") (B "sell")) = Some l /\ l = [s] /\ symbol_uri s = uri_a.
Proof.
  destruct (summary_inv false killed_twice (QMethod (B "\App\Shop") (B "sell"))
    [EvSync doc_b; EvRestart; EvSync doc_a; EvRestart] 0%nat [uri_a; uri_a] (Some [uri_a])) as (w & E & D1 & D2 & D3 & D4); [vm_compute; reflexivity|].
  assert (R := drive_apart root_uri killed_twice w killed_twice_ok E). clear E.
  destruct (ask (w_store w) (QMethod (B "\App\Shop") (B "sell"))) as [[|s [|? ?]]|] eqn:A; try discriminate D4.
  exists w, [s], s. split; [exact R|]. split; [exact D1|]. split; [exact D3|]. split; [exact Logic.I|].
  split; [exact A|]. split; [reflexivity|]. cbn [option_map map] in D4; injection D4 as ->; reflexivity.
Qed.
