(** Claims about line tables, positions and incremental edits. *)
From Coq Require Import String.
From Coq Require Import List Bool NArith ZArith Lia.
From Coq.Strings Require Import Byte.
From Verif Require Import Base.Bytes Base.BytesProofs Base.Protocol Base.Utf8 Words.TokeniserSpec Words.TokeniserProofs
  Text.PositionSpec Text.TextModel Text.TextSpec Text.TextProofs.
Import ListNotations.
Open Scope list_scope.
Open Scope Z_scope.

(** ** C24 line table *)
(** Every text has lines, and for texts in which every CR is followed by LF
    line i of the table starts right after the i-th line terminator. *)
Theorem C24_every_text_has_lines : forall text, exists ls, lines_of text ls.
Proof. exact lines_exist. Qed.
Print Assumptions C24_every_text_has_lines.

Theorem C24_line_table_partial : forall text ls, lines_of text ls -> no_lone_cr text ->
  length (td_lines (SetText text)) = length ls
  /\ forall i, (i < length ls)%nat -> nth_error (td_lines (SetText text)) i = Some (line_start ls i).
Proof.
  intros text ls L NL. rewrite SetText_lines, (lines_starts _ _ L NL 0) by exact NL. rewrite map_length, seq_length. split; [reflexivity|].
  intros i I. rewrite nth_error_map, (nth_error_nth' _ 0%nat) by (rewrite seq_length; exact I). rewrite seq_nth by exact I. reflexivity.
Qed.
Print Assumptions C24_line_table_partial.

Ltac oneline := split; intros I; cbn in I; repeat (destruct I as [I|I]; [discriminate|]); exact I.
Lemma no_lone_check : forall s, (fix ok (s : gostr) : bool := match s with
    | [] => true | b :: t => (if byte_eqb b CR then match t with c :: _ => byte_eqb c LF | [] => false end else true) && ok t end) s = true -> no_lone_cr s.
Proof.
  intros s H a b E. subst s. induction a as [|x a IH].
  - cbn in H. destruct b as [|c b]; [discriminate|]. apply andb_true_iff in H as [H _]. apply byte_eqb_eq in H. subst. eauto.
  - cbn [app] in H. apply andb_true_iff in H as [_ H]. exact (IH H).
Qed.
Definition sample : gostr := B "<?php" ++ [CR; LF] ++ B "$a;" ++ [LF] ++ B "$b".
Example C24_hypotheses_met : lines_of sample [B "<?php" ++ [CR; LF]; B "$a;" ++ [LF]; B "$b"] /\ no_lone_cr sample
  /\ td_lines (SetText sample) = [0; 7; 11].
Proof.
  split; [|split; [apply no_lone_check; reflexivity|reflexivity]].
  apply (lines_crlf (B "<?php") (B "$a;" ++ LF :: B "$b")); [oneline|]. apply lines_lf; [oneline|]. apply lines_last. oneline.
Qed.

(** A CR on its own is not counted: the next line starts at the CR. *)
Theorem C24_lone_cr_refuted : exists text ls, lines_of text ls /\ td_lines (SetText text) <> map (line_start ls) (seq 0 (length ls)).
Proof.
  exists (B "a" ++ CR :: B "b"), [B "a" ++ [CR]; B "b"]. split; [|discriminate].
  apply lines_cr; [oneline|intros r; discriminate|]. apply lines_last. oneline.
Qed.
Print Assumptions C24_lone_cr_refuted.

(** ** C25 offset to position and back *)
(** Every offset has a position, and positions are ordered like offsets, for
    every text. *)
Theorem C25_order : forall text o o', 0 <= o < o' ->
  exists p p', positionAt (SetText text) o = Some p /\ positionAt (SetText text) o' = Some p' /\ before p p'.
Proof.
  intros text o o' O. rewrite !positionAt_some by lia. eexists. eexists. split; [reflexivity|]. split; [reflexivity|].
  unfold before. cbn [p_line p_char].
  destruct (lineAt_spec text o ltac:(lia)) as (B1 & S1 & N1). destruct (lineAt_spec text o' ltac:(lia)) as (B2 & S2 & N2).
  set (L := lineAt (SetText text) o) in *. set (L' := lineAt (SetText text) o') in *.
  destruct (Z.lt_trichotomy L L') as [H|[H|H]]; [left; exact H|right|exfalso].
  - split; [exact H|]. rewrite H. lia.
  - specialize (N2 (Z.to_nat L)). rewrite Z2Nat.id in N2 by lia. specialize (N2 ltac:(lia) H). lia.
Qed.
Print Assumptions C25_order.

(** The position of an offset converts back to it if the part of the line
    before it is ASCII: columns are counted in bytes one way and in characters
    the other way. *)
Theorem C25_round_trip_partial : forall text o p, 0 <= o <= Z.of_nat (length text) ->
  positionAt (SetText text) o = Some p ->
  ascii (slice text (Z.to_nat (o - p_char p)) (Z.to_nat o)) ->
  OffsetAtPosition (SetText text) p = Some o.
Proof.
  intros text o p O E A. rewrite positionAt_some in E by lia. injection E as <-. cbn [p_char] in A.
  destruct (lineAt_spec text o ltac:(lia)) as (B & S & N). destruct (table_sorted text) as (_ & TB & HD).
  set (d := SetText text) in *. set (L := lineAt d o) in *. set (s := nth (Z.to_nat L) (td_lines d) 0) in *.
  assert (SB : 0 <= s <= Z.of_nat (length text)) by (apply TB; apply nth_In; lia).
  unfold OffsetAtPosition. cbn [p_line p_char]. rewrite <- (Z2Nat.id L) by lia. rewrite offsetAtLine_nth by (assumption || lia). fold s.
  assert (TX : td_text d = text) by apply SetText_text. rewrite TX.
  replace (o - (o - s)) with s in A by lia.
  set (mid := slice text (Z.to_nat s) (Z.to_nat o)) in *. destruct (ascii_good mid A) as [G LG].
  assert (LM : length mid = (Z.to_nat o - Z.to_nat s)%nat) by (unfold mid, slice; rewrite firstn_length, skipn_length; lia).
  assert (SPL : text = firstn (Z.to_nat s) text ++ mid ++ skipn (Z.to_nat o) text).
  { unfold mid, slice. rewrite <- (firstn_skipn (Z.to_nat s) text) at 1. f_equal. rewrite <- (firstn_skipn (Z.to_nat o - Z.to_nat s) (skipn (Z.to_nat s) text)) at 1. f_equal.
    rewrite skipn_skipn. f_equal. lia. }
  replace (Z.to_nat (o - s)) with (length (to_runes mid)) by (rewrite LG, LM; lia).
  assert (ST : rune_steps (length (to_runes mid)) text s = Some o).
  { assert (H := rune_steps_over mid (firstn (Z.to_nat s) text) (skipn (Z.to_nat o) text) G). rewrite <- SPL in H.
    rewrite firstn_length_le, LM in H by lia. rewrite Z2Nat.id in H by lia. rewrite H. f_equal. lia. }
  rewrite ST. destruct (Z.ltb_spec o (Z.of_nat (length text))).
  - destruct (Z.ltb_spec o 0); [lia|reflexivity].
  - destruct (Z.ltb_spec (Z.of_nat (length text)) 0); [lia|]. f_equal. lia.
Qed.
Print Assumptions C25_round_trip_partial.
Example C25_hypotheses_met : positionAt (SetText sample) 9 = Some (Pos 1 2) /\ slice sample 7 9 = B "$a"
  /\ OffsetAtPosition (SetText sample) (Pos 1 2) = Some 9.
Proof. repeat split. Qed.

Theorem C25_non_ascii_refuted : exists text o p, well_encoded text /\ 0 <= o <= Z.of_nat (length text)
  /\ positionAt (SetText text) o = Some p /\ OffsetAtPosition (SetText text) p <> Some o.
Proof.
  exists ([xc3; xa9] ++ B "abc"), 3. eexists. split.
  - intros i r I. vm_compute in I. unfold RuneError. repeat (destruct I as [I|I]; [injection I; intros; subst; discriminate|]). destruct I.
  - split; [cbn; lia|]. split; [reflexivity|]. vm_compute. discriminate.
Qed.
Print Assumptions C25_non_ascii_refuted.

(** ** C61 reported positions are the editor's positions *)
(** For ASCII texts without lone CR, the position computed for an offset that
    is not in the middle of a line terminator is the editor's position of that
    offset. *)
Theorem C61_reported_positions_partial : forall text o p, ascii text -> no_lone_cr text ->
  (exists a b, text = a ++ b /\ o = Z.of_nat (length a) /\ (forall x, a <> x ++ [CR])) ->
  positionAt (SetText text) o = Some p -> at_position text p o.
Proof.
  intros text o p A NL (a & b & EA & EO & NC) E. assert (O : 0 <= o) by lia. rewrite positionAt_some in E by exact O. injection E as <-.
  destruct (lineAt_spec text o O) as (Bd & Sd & N). destruct (lines_exist text) as [ls L].
  destruct (C24_line_table_partial text ls L NL) as [LEN NTH]. set (d := SetText text) in *. set (i := Z.to_nat (lineAt d o)) in *.
  assert (I : (i < length ls)%nat) by (unfold i; lia).
  destruct (nth_error ls i) as [l|] eqn:EI; [|apply nth_error_None in EI; lia].
  destruct (nth_error_split _ _ EI) as (bef & aft & -> & LB).
  assert (C := lines_concat _ _ L). rewrite concat_app in C. cbn [concat] in C.
  assert (SI : nth i (td_lines d) 0 = Z.of_nat (length (concat bef))).
  { specialize (NTH i I). apply nth_error_nth with (d := 0) in NTH. rewrite NTH. unfold line_start. rewrite <- LB, firstn_app, Nat.sub_diag, firstn_all, app_nil_r. reflexivity. }
  rewrite SI in *.
  assert (OB : o <= Z.of_nat (length (concat bef) + length l) /\ (aft <> [] -> o < Z.of_nat (length (concat bef) + length l))).
  { destruct aft as [|l2 aft].
    - split; [|congruence]. rewrite EO. assert (length a <= length text)%nat by (rewrite EA, app_length; lia). rewrite <- C in H. cbn in H. rewrite app_nil_r, app_length in H. lia.
    - assert (J : o < nth (S i) (td_lines d) 0) by (apply N; [rewrite LEN, app_length; cbn; lia|unfold i; lia]).
      specialize (NTH (S i)). rewrite app_length in NTH. specialize (NTH ltac:(cbn; lia)). apply nth_error_nth with (d := 0) in NTH. rewrite NTH in J. unfold line_start in J.
      rewrite firstn_app in J. replace (S i - length bef)%nat with 1%nat in J by lia. rewrite firstn_all2 in J by lia. cbn [firstn] in J. rewrite concat_app, app_length in J. cbn in J. rewrite app_nil_r in J.
      split; [lia|intros _; lia]. }
  set (k := (Z.to_nat o - length (concat bef))%nat).
  exists bef, (firstn k l), (skipn k l), aft. rewrite firstn_skipn. split; [exact L|]. cbn [p_line p_char]. split; [transitivity (Z.of_nat i); [exact (f_equal Z.of_nat LB)|unfold i; lia]|].
  assert (KL : (k <= length l)%nat) by (unfold k; lia).
  assert (AM : ascii (firstn k l)).
  { intros x Ix. apply A. rewrite <- C. apply in_or_app. right. apply in_or_app. left. rewrite <- (firstn_skipn k l). apply in_or_app. auto. }
  destruct (ascii_good _ AM) as [G LG]. split; [|split; [|split]].
  - destruct (line_shape _ _ _ _ L NL) as [[-> O1]|(NE & s & Os & SH)]; [now apply one_line_firstn|]. destruct OB as [_ OB]. specialize (OB NE).
    destruct SH as [-> | ->]; rewrite app_length in *; cbn [length] in *.
    + rewrite firstn_app. replace (k - length s)%nat with 0%nat by (unfold k; lia). cbn [firstn]. rewrite app_nil_r. now apply one_line_firstn.
    + assert (K : (k <= length s)%nat).
      { destruct (le_lt_dec k (length s)) as [K|K]; [exact K|]. exfalso. assert (KE : k = S (length s)) by (unfold k in *; lia).
        apply (NC (concat bef ++ s)). rewrite <- C in EA. assert (LA : length a = length ((concat bef ++ s) ++ [CR])) by (rewrite !app_length; cbn; unfold k in KE; lia).
        assert (EA' : ((concat bef ++ s) ++ [CR]) ++ LF :: concat aft = a ++ b) by (rewrite <- EA, <- !app_assoc; reflexivity).
        assert (PRE : forall (u v w z : list byte), u ++ v = w ++ z -> length w = length u -> w = u).
        { clear. induction u as [|x u IH]; intros v [|y w] z E Le; cbn in *; try lia; [reflexivity|]. injection E as -> E. f_equal. apply (IH v w z E). lia. }
        exact (PRE _ _ _ _ EA' LA). }
      rewrite firstn_app. replace (k - length s)%nat with 0%nat by lia. cbn [firstn]. rewrite app_nil_r. now apply one_line_firstn.
  - apply well_encoded_good. exact G.
  - rewrite utf16_basic, LG, firstn_length_le by (exact KL || (apply ascii_basic; exact AM)). unfold k. lia.
  - rewrite firstn_length_le by exact KL. unfold k. lia.
Qed.
Print Assumptions C61_reported_positions_partial.
Example C61_hypotheses_met : ascii sample /\ no_lone_cr sample
  /\ (exists a b, sample = a ++ b /\ 9 = Z.of_nat (length a) /\ (forall x, a <> x ++ [CR]))
  /\ positionAt (SetText sample) 9 = Some (Pos 1 2).
Proof.
  split; [|split; [apply no_lone_check; reflexivity|split; [|reflexivity]]].
  - intros b I. cbn in I. repeat (destruct I as [<-|I]; [reflexivity|]). destruct I.
  - exists (firstn 9 sample), (skipn 9 sample). split; [reflexivity|]. split; [reflexivity|]. intros x E.
    apply (f_equal (@rev byte)) in E. rewrite rev_app_distr in E. discriminate.
Qed.

(** After a non-ASCII character the reported column is too large. *)
Theorem C61_non_ascii_refuted : exists text o p, well_encoded text /\ basic text /\ no_lone_cr text
  /\ positionAt (SetText text) o = Some p /\ ~ at_position text p o.
Proof.
  exists ([xc3; xa9] ++ B "abc"), 3, (Pos 0 3).
  assert (WE : well_encoded ([xc3; xa9] ++ B "abc")).
  { intros i r I. vm_compute in I. unfold RuneError. repeat (destruct I as [I|I]; [injection I; intros; subst; discriminate|]). destruct I. }
  assert (BA : basic ([xc3; xa9] ++ B "abc")) by (intros r I; vm_compute in I; repeat (destruct I as [<-|I]; [reflexivity|]); destruct I).
  assert (NL : no_lone_cr ([xc3; xa9] ++ B "abc")) by (apply no_lone_check; reflexivity).
  split; [exact WE|]. split; [exact BA|]. split; [exact NL|]. split; [reflexivity|].
  intros AP. apply at_position_prefix in AP; [|repeat split; assumption]. destruct AP as (a & rest & _ & _ & _ & _ & _ & _ & E). vm_compute in E. discriminate.
Qed.
Print Assumptions C61_non_ascii_refuted.

(** ** C26 incremental edits *)
(** For texts and insertions that are valid UTF-8 of the basic plane and in
    which every CR is followed by LF, and edits at positions within the lines:
    the text is the editor's and the line table that of the new text. *)
Theorem C26_edits_partial : forall text cs text', edits text cs text' ->
  plain_text text -> (forall c, In c cs -> plain_text (ch_text c)) ->
  exists d, ApplyChanges (SetText text) cs = Some d
    /\ td_text d = text' /\ td_lines d = td_lines (SetText text').
Proof.
  intros text cs text' E PT PC. destruct (edits_correct _ _ _ E PT PC (SetText text) (SetText_text text) eq_refl) as (_ & d & H). eauto.
Qed.
Print Assumptions C26_edits_partial.

Lemma at_check : forall bef mid rest aft text p o,
  lines_of text (bef ++ (mid ++ rest) :: aft) -> Z.of_nat (length bef) = p_line p -> one_line mid -> ascii mid ->
  Z.of_nat (length mid) = p_char p -> o = Z.of_nat (length (concat bef) + length mid) -> at_position text p o.
Proof.
  intros bef mid rest aft text p o L E1 O A E2 E3. exists bef, mid, rest, aft. destruct (ascii_good mid A) as [G LG].
  split; [exact L|]. split; [exact E1|]. split; [exact O|]. split; [now apply well_encoded_good|]. split; [|exact E3].
  rewrite utf16_basic, LG by (now apply ascii_basic). exact E2.
Qed.
Ltac isascii := intros ?b I; cbn in I; repeat (destruct I as [<-|I]; [reflexivity|]); destruct I.
Lemma sample_lines : lines_of sample [B "<?php" ++ [CR; LF]; B "$a;" ++ [LF]; B "$b"].
Proof. apply C24_hypotheses_met. Qed.
Lemma ascii_plain : forall s, ascii s -> no_lone_cr s -> plain_text s.
Proof. intros s A N. destruct (ascii_good s A) as [G _]. split; [exact N|]. split; [now apply well_encoded_good|now apply ascii_basic]. Qed.

(** replacing "a;<LF>$" by "x" *)
Definition sample_edit : change := Change (Some (Rng (Pos 1 1) (Pos 2 1))) (B "x").
Example C26_hypotheses_met :
  edits sample [sample_edit] (B "<?php" ++ [CR; LF] ++ B "$xb") /\ plain_text sample /\ plain_text (B "x")
  /\ exists eol, ApplyChanges (SetText sample) [sample_edit] = Some (TextDoc (B "<?php" ++ [CR; LF] ++ B "$xb") [0; 7] eol).
Proof.
  split; [|split; [apply ascii_plain; [isascii|apply no_lone_check; reflexivity]|split; [apply ascii_plain; [isascii|apply no_lone_check; reflexivity]|eexists; reflexivity]]].
  eapply edits_cons; [|constructor].
  apply (edit_range (B "<?php" ++ [CR; LF] ++ B "$") (B "a;" ++ [LF] ++ B "$") (B "b")).
  - apply (at_check [B "<?php" ++ [CR; LF]] (B "$") (B "a;" ++ [LF]) [B "$b"]); [exact sample_lines|reflexivity|oneline|isascii|reflexivity|reflexivity].
  - apply (at_check [B "<?php" ++ [CR; LF]; B "$a;" ++ [LF]] (B "$") (B "b") []); [exact sample_lines|reflexivity|oneline|isascii|reflexivity|reflexivity].
Qed.

(** Characters beyond the basic plane: the editor counts two units. *)
Theorem C26_astral_refuted : exists text c text', edit text c text' /\ no_lone_cr text /\ well_encoded text
  /\ forall d, ApplyChanges (SetText text) [c] = Some d -> td_text d <> text'.
Proof.
  set (t := [xf0; x9f; x98; x80] ++ [] ++ B "ab").
  exists t, (Change (Some (Rng (Pos 0 2) (Pos 0 2))) (B "x")), ([xf0; x9f; x98; x80] ++ B "x" ++ B "ab").
  assert (L : lines_of t ([] ++ ([xf0; x9f; x98; x80] ++ B "ab") :: [])) by (apply lines_last; oneline).
  assert (WE : forall s, (forall i r, In (i, r) (range_runes s) -> r <> RuneError) -> well_encoded s) by auto.
  assert (AP : at_position t (Pos 0 2) (Z.of_nat (length [xf0; x9f; x98; x80]))).
  { exists [], [xf0; x9f; x98; x80], (B "ab"), []. split; [exact L|]. split; [reflexivity|]. split; [oneline|]. split; [|split; reflexivity].
    intros i r I. vm_compute in I. unfold RuneError. repeat (destruct I as [I|I]; [injection I; intros; subst; discriminate|]). destruct I. }
  split; [apply (edit_range [xf0; x9f; x98; x80] [] (B "ab")); exact AP|]. split; [apply no_lone_check; reflexivity|]. split.
  - intros i r I. vm_compute in I. unfold RuneError. repeat (destruct I as [I|I]; [injection I; intros; subst; discriminate|]). destruct I.
  - intros d E. vm_compute in E. injection E as <-. discriminate.
Qed.
Print Assumptions C26_astral_refuted.

(** A column beyond the end of the line runs over into the next line. *)
Theorem C26_past_line_end_refuted : exists text p o d, plain_text text
  /\ past_line_end text p o /\ ApplyChanges (SetText text) [Change (Some (Rng p p)) (B "x")] = Some d
  /\ td_text d <> firstn (Z.to_nat o) text ++ B "x" ++ skipn (Z.to_nat o) text.
Proof.
  exists sample, (Pos 1 9), 10. eexists. split; [apply ascii_plain; [isascii|apply no_lone_check; reflexivity]|]. split.
  - exists [B "<?php" ++ [CR; LF]], (B "$a;"), [LF], [B "$b"]. split; [exact sample_lines|]. split; [reflexivity|]. split; [oneline|]. split; [auto|]. split; reflexivity.
  - split; [vm_compute; reflexivity|]. discriminate.
Qed.
Print Assumptions C26_past_line_end_refuted.

(** Inserting a CR in front of an LF joins two terminators; the table keeps
    both. *)
Theorem C26_cr_before_lf_refuted : exists text c text' d, edit text c text' /\ plain_text text /\ no_lone_cr text'
  /\ ApplyChanges (SetText text) [c] = Some d /\ td_lines d <> td_lines (SetText text').
Proof.
  exists (B "a" ++ [] ++ LF :: B "b"), (Change (Some (Rng (Pos 0 1) (Pos 0 1))) [CR]), (B "a" ++ [CR] ++ LF :: B "b"). eexists.
  assert (AP : at_position (B "a" ++ [] ++ LF :: B "b") (Pos 0 1) 1).
  { apply (at_check [] (B "a") [LF] [B "b"]); try reflexivity; [|oneline|isascii]. apply (lines_lf (B "a") (B "b")); [oneline|]. apply lines_last. oneline. }
  split; [apply (edit_range (B "a") [] (LF :: B "b")); exact AP|]. split; [apply ascii_plain; [isascii|apply no_lone_check; reflexivity]|].
  split; [apply no_lone_check; reflexivity|]. split; [vm_compute; reflexivity|]. discriminate.
Qed.
Print Assumptions C26_cr_before_lf_refuted.

(** The line terminator used for inserted text is re-detected from the inserted
    text alone. *)
Theorem C26_detected_terminator_refuted : exists text c text' d, edit text c text' /\ plain_text text /\ plain_text (ch_text c)
  /\ ApplyChanges (SetText text) [c] = Some d /\ td_eol d <> td_eol (SetText text').
Proof.
  exists (B "a" ++ [] ++ CR :: LF :: B "b"), (Change (Some (Rng (Pos 0 1) (Pos 0 1))) (B "x")), (B "a" ++ B "x" ++ CR :: LF :: B "b"). eexists.
  assert (AP : at_position (B "a" ++ [] ++ CR :: LF :: B "b") (Pos 0 1) 1).
  { apply (at_check [] (B "a") [CR; LF] [B "b"]); try reflexivity; [|oneline|isascii]. apply (lines_crlf (B "a") (B "b")); [oneline|]. apply lines_last. oneline. }
  split; [apply (edit_range (B "a") [] (CR :: LF :: B "b")); exact AP|]. split; [apply ascii_plain; [isascii|apply no_lone_check; reflexivity]|].
  split; [apply ascii_plain; [isascii|apply no_lone_check; reflexivity]|]. split; [vm_compute; reflexivity|]. discriminate.
Qed.
Print Assumptions C26_detected_terminator_refuted.

(** ** C27 position conversion stays within the document *)
Theorem C27_in_document : forall text p, exists o,
  OffsetAtPosition (SetText text) p = Some o /\ 0 <= o <= Z.of_nat (length text).
Proof.
  intros text p. destruct (offset_in_document (SetText text) p) as (o & E & B).
  - rewrite SetText_text. apply table_sorted.
  - rewrite SetText_text in B. eauto.
Qed.
Print Assumptions C27_in_document.

(** ... and after any sequence of edits covered by C26. *)
Theorem C27_after_edits_partial : forall text cs text' p, edits text cs text' ->
  plain_text text -> (forall c, In c cs -> plain_text (ch_text c)) ->
  exists d o, ApplyChanges (SetText text) cs = Some d
    /\ OffsetAtPosition d p = Some o /\ 0 <= o <= Z.of_nat (length text').
Proof.
  intros text cs text' p E PT PC. destruct (C26_edits_partial _ _ _ E PT PC) as (d & A & DT & DL).
  destruct (offset_in_document d p) as (o & O & B).
  - rewrite DT, DL. apply table_sorted.
  - exists d, o. rewrite DT in B. auto.
Qed.
Print Assumptions C27_after_edits_partial.

(** An edit at a negative line makes the server panic. *)
Theorem C27_negative_line_edit_refuted : exists text c, ApplyChanges (SetText text) [c] = None.
Proof. exists (B "a"), (Change (Some (Rng (Pos (-2) 0) (Pos 0 0))) (B "x")). reflexivity. Qed.
Print Assumptions C27_negative_line_edit_refuted.
Example C27_odd_positions : OffsetAtPosition (SetText sample) (Pos (-3) 4) = Some 4
  /\ OffsetAtPosition (SetText sample) (Pos 99 99) = Some 13 /\ OffsetAtPosition (SetText sample) (Pos 1 (-5)) = Some 7.
Proof. repeat split. Qed.
