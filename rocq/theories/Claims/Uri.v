(** C91: the names of files. *)
From Coq Require Import String.
From Coq Require Import List Bool NArith ZArith Lia.
From Coq.Strings Require Import Byte.
From Verif Require Import Base.Bytes Base.BytesProofs Uri.UriModel Uri.UriSpec Uri.UriProofs.
Import ListNotations.
Open Scope list_scope.
Open Scope nat_scope.

(** A file whose path has only simple characters has one name: the indexer and
    the notifications of the editor give it the URI the editor uses, and the
    document of that URI is read from that file. *)
Theorem C91_one_name_partial : forall names, names <> [] -> Forall file_name names -> simple (path_of names) ->
  indexed_as (path_of names) = Some (editor_uri (path_of names))
  /\ notified_as (editor_uri (path_of names)) = Some (editor_uri (path_of names))
  /\ read_from (editor_uri (path_of names)) = Some (path_of names).
Proof.
  intros names N F S. assert (R : exists r, path_of names = SLASH :: r) by (destruct names as [|n names]; [contradiction|]; cbn; eauto).
  assert (ND : no_drive names).
  { intros s r E. subst names. assert (I : In x3a (path_of ((s ++ [x3a]) :: r))) by (right; apply in_or_app; left; apply in_or_app; right; now left).
    revert I. now apply simple_not. }
  split; [|split].
  - rewrite (indexed_path names N F ND), (escape_simple _ S). unfold editor_uri. now destruct (contains_byte (path_of names) SPACE).
  - destruct R as [r R]. rewrite R in *. now apply notified_simple.
  - destruct R as [r R]. rewrite R in *. apply read_ok; now apply simple_not.
Qed.
Print Assumptions C91_one_name_partial.

(** Without a blank in the path, or without the characters [$&+,:;=@], the
    indexer uses the editor's URI whatever else the path contains. *)
Theorem C91_indexed_partial : forall names, names <> [] -> Forall file_name names -> no_drive names ->
  ~ In x20 (path_of names) \/ (forall c, In c (path_of names) -> ~ In c (B "$&+,:;=@")) ->
  indexed_as (path_of names) = Some (editor_uri (path_of names)).
Proof.
  intros names N F ND [H|H]; rewrite (indexed_path names N F ND); unfold editor_uri.
  - destruct (contains_byte (path_of names) SPACE) eqn:C; [|reflexivity]. exfalso. apply H. unfold contains_byte in C.
    apply existsb_exists in C as (c & I & E). apply Byte.byte_dec_bl in E. now subst.
  - rewrite (escape_mild _ H). now destruct (contains_byte (path_of names) SPACE).
Qed.
Print Assumptions C91_indexed_partial.

(** Whatever is below the folder, the indexer gets a name for it, so that it
    does not wait for a file forever (workspaceStore.go:53-57 drops the job
    without telling the indexer that it is done). *)
Theorem C91_indexer_not_stuck_partial : forall names, names <> [] -> Forall file_name names -> no_drive names ->
  indexed_as (path_of names) <> None.
Proof. intros names N F ND. rewrite (indexed_path names N F ND). discriminate. Qed.
Print Assumptions C91_indexer_not_stuck_partial.

(** A document is read from the file that the editor means, unless its path has
    a plus sign, a percent sign or a colon. *)
Theorem C91_read_partial : forall names, names <> [] ->
  (forall c, In c (path_of names) -> ~ In c (B "+%:")) ->
  read_from (editor_uri (path_of names)) = Some (path_of names).
Proof.
  intros names N H. destruct names as [|n names]; [contradiction|]. cbn [path_of flat_map app] in *.
  apply read_ok; intros I; apply (H _ I); cbn; tauto.
Qed.
Print Assumptions C91_read_partial.

(** Different files have different names. *)
Theorem C91_distinct : forall path path', editor_uri path = editor_uri path' -> path = path'.
Proof. exact editor_uri_injective. Qed.
Print Assumptions C91_distinct.

Definition cafe : list gostr := [B "w"; B "my caf" ++ [xc3; xa9]; B "a-b.php"].
Ltac byte_cases := let c := fresh in let I := fresh in intros c I; cbn in I;
  repeat (destruct I as [I|I]; [subst c; first [left; cbn; tauto|right; left; reflexivity|right; right; discriminate]|]); destruct I.
Lemma cafe_names : Forall file_name cafe.
Proof. repeat constructor; try discriminate; intros I; cbn in I; repeat (destruct I as [I|I]; [discriminate|]); exact I. Qed.
Example C91_hypotheses_met : cafe <> [] /\ Forall file_name cafe /\ simple (path_of cafe) /\ no_drive cafe
  /\ path_of cafe = B "/w/my caf" ++ [xc3; xa9] ++ B "/a-b.php"
  /\ editor_uri (path_of cafe) = B "file:///w/my%20caf%C3%A9/a-b.php"
  /\ indexed_as (path_of cafe) = Some (B "file:///w/my%20caf%C3%A9/a-b.php").
Proof.
  split; [discriminate|]. split; [exact cafe_names|]. split; [byte_cases|]. split.
  - intros s r E. injection E as E _. destruct s as [|x [|y s]]; discriminate.
  - repeat (split; [vm_compute; reflexivity|]). vm_compute. reflexivity.
Qed.

(** A plus sign is read as a blank: the file cannot be opened. *)
Theorem C91_plus_refuted : read_from (editor_uri (B "/w/a+b.php")) = Some (B "/w/a b.php").
Proof. vm_compute. reflexivity. Qed.
Print Assumptions C91_plus_refuted.
(** A percent sign makes it another file, or none. *)
Theorem C91_percent_refuted : read_from (editor_uri (B "/w/%41.php")) = Some (B "/w/A.php")
  /\ read_from (editor_uri (B "/w/100%.php")) = None.
Proof. split; vm_compute; reflexivity. Qed.
Print Assumptions C91_percent_refuted.
(** A colon makes it a Windows path. *)
Theorem C91_colon_refuted : read_from (editor_uri (B "/w/a:b.php")) = Some (B "w\a:b.php").
Proof. vm_compute. reflexivity. Qed.
Print Assumptions C91_colon_refuted.
(** Some characters give a file two names, one from the indexer and the opened
    document, the other from notifications: both are read from the file, so its
    symbols are in the index twice. *)
Theorem C91_two_names_refuted : indexed_as (B "/w/a&b.php") = Some (B "file:///w/a%26b.php")
  /\ editor_uri (B "/w/a&b.php") = B "file:///w/a%26b.php"
  /\ notified_as (B "file:///w/a%26b.php") = Some (B "file:///w/a&b.php")
  /\ read_from (B "file:///w/a%26b.php") = Some (B "/w/a&b.php")
  /\ read_from (B "file:///w/a&b.php") = Some (B "/w/a&b.php").
Proof. repeat (split; [vm_compute; reflexivity|]). vm_compute. reflexivity. Qed.
Print Assumptions C91_two_names_refuted.
(** So does a blank together with one of them. *)
Theorem C91_blank_refuted : indexed_as (B "/w/a & b.php") = Some (B "file:///w/a%20&%20b.php")
  /\ editor_uri (B "/w/a & b.php") = B "file:///w/a%20%26%20b.php".
Proof. split; vm_compute; reflexivity. Qed.
Print Assumptions C91_blank_refuted.
(** A question mark: what the editor notifies is another path. *)
Theorem C91_question_refuted : exists u, notified_as (editor_uri (B "/w/why?.php")) = Some u
  /\ read_from u = Some (B "/w/why").
Proof. eexists. split; vm_compute; reflexivity. Qed.
Print Assumptions C91_question_refuted.
(** A notification about a file with a control character is dropped. *)
Theorem C91_control_refuted : notified_as (editor_uri (B "/w/a" ++ [x01] ++ B "b.php")) = None.
Proof. vm_compute. reflexivity. Qed.
Print Assumptions C91_control_refuted.
(** On Windows, for an editor that encodes the colon of the drive, the names the
    indexer and the notifications give do not begin with the URI of the folder,
    so no store is found for them (workspaceStore.go:217-224) and nothing is
    indexed. *)
Theorem C91_drive_refuted : let folder := B "file:///c%3A/w" in
  read_from folder = Some (B "c:\w")
  /\ exists u, indexed_as (B "c:\w\a.php") = Some u /\ has_prefix folder u = false
     /\ notified_as (B "file:///c%3A/w/a.php") = Some u.
Proof. split; [vm_compute; reflexivity|]. eexists. split; [vm_compute; reflexivity|]. split; vm_compute; reflexivity. Qed.
Print Assumptions C91_drive_refuted.
