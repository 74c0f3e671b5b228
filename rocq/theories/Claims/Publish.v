(** Claims about syntax errors and about when diagnostics are sent. *)
From Coq Require Import String.
From Coq Require Import List Bool ZArith Lia.
From Coq.Strings Require Import Byte.
From Verif Require Import Base.Bytes Base.BytesProofs Base.Utf8 Base.Protocol Words.TokeniserSpec Text.TextModel Text.TextSpec Text.TextProofs
  Analyse.SyntaxModel Analyse.AnalyseSpec Whole.DiagnosticModel Whole.DiagnosticSpec Whole.DiagnosticProofs Ide.PublishModel Ide.PublishSpec Ide.PublishProofs Claims.Text.
Import ListNotations.
Open Scope list_scope.
Open Scope nat_scope.

(** ** C81 every syntax error is reported once, where it is *)
(** For every tree the parser can return: one diagnostic for each parse error, in the
    order of the text, and nothing else; each says what was found and expected. *)
Theorem C81_each_error_once : forall type_name d root es, errors_of root es -> Forall placed_error es ->
  exists l, GetParserDiagnostics type_name d root = Some l /\ Forall2 (reports type_name d) es l.
Proof. intros type_name d root es E P. exact (walk_reports type_name d root es E P []). Qed.
Print Assumptions C81_each_error_once.

Theorem C81_errors_are_listed : forall root, exists es, errors_of root es /\ forall es', errors_of root es' -> es' = es.
Proof.
  intros root. destruct (errors_exist root) as (es & E). exists es. split; [exact E|]. intros es' E'. revert es es' E E'.
  apply (tree_ind' (fun n => forall es es', errors_of n es -> errors_of n es' -> es' = es)) with (n := root).
  - intros ty kids IH es es' E E'. inversion E as [k1|t1 k1 p1 N1 F1| |]; inversion E' as [k2|t2 k2 p2 N2 F2| |]; subst; try contradiction; [reflexivity|].
    f_equal. clear - IH F1 F2. revert p1 p2 F1 F2. induction IH as [|k ks H _ IHk]; intros p1 p2 F1 F2; inversion F1; inversion F2; subst; [reflexivity|].
    f_equal; [eapply H; eassumption|eapply IHk; eassumption].
  - intros t es es' E E'. inversion E; inversion E'; subst. reflexivity.
  - intros e es es' E E'. inversion E; inversion E'; subst. reflexivity.
Qed.
Print Assumptions C81_errors_are_listed.

(** In an ASCII text the reported range is, for the editor, that of the tokens. *)
Definition not_in_crlf (text : gostr) (o : nat) : Prop := exists a b, text = a ++ b /\ o = length a /\ forall x, a <> x ++ [CR].
Theorem C81_where_it_is_partial : forall type_name d text root es e, d_text d = SetText text -> ascii text -> no_lone_cr text ->
  errors_of root es -> Forall placed_error es -> In e es ->
  (forall first last, error_tokens e first last -> not_in_crlf text (t_offset first) /\ not_in_crlf text (t_end last)) ->
  exists l dg first last, GetParserDiagnostics type_name d root = Some l /\ In dg l /\ error_tokens e first last /\
    dg_message dg = error_message type_name e /\
    at_position text (r_start (dg_range dg)) (Z.of_nat (t_offset first)) /\ at_position text (r_end (dg_range dg)) (Z.of_nat (t_end last)).
Proof.
  intros type_name d text root es e Dt A N E P I W. destruct (C81_each_error_once type_name d root es E P) as (l & G & F).
  assert (X : exists dg, In dg l /\ reports type_name d e dg).
  { clear - F I. induction F as [|x y es l R F IH]; [destruct I|]. destruct I as [->|I]; [exists y; split; [left; reflexivity|exact R]|]. destruct (IH I) as (dg & J & R'). exists dg. split; [right; exact J|exact R']. }
  destruct X as (dg & Id & _ & M & first & last & T & R). destruct (W first last T) as (W1 & W2). exists l, dg, first, last. rewrite R. cbn [r_start r_end].
  assert (At : forall o, not_in_crlf text o -> at_position text (pos_at d o) (Z.of_nat o)).
  { intros o (a & b & Et & Eo & Nc). unfold pos_at. rewrite Dt. destruct (positionAt (SetText text) (Z.of_nat o)) as [p|] eqn:Ep.
    - apply (C61_reported_positions_partial text (Z.of_nat o) p A N); [|exact Ep]. exists a, b. split; [exact Et|]. split; [rewrite Eo; reflexivity|exact Nc].
    - rewrite positionAt_some in Ep by lia. discriminate Ep. }
  repeat split; try assumption; apply At; assumption.
Qed.
Print Assumptions C81_where_it_is_partial.

(** An error without a token: the server would crash. The parser gives every error its
    unexpected token, but nothing in this code relies on that. *)
Theorem C81_nowhere_refuted : exists root e, errors_of root [e] /\ forall type_name d, GetParserDiagnostics type_name d root = None.
Proof.
  exists (TPhrase PhStatementList [TError (ParseError None None [])]), (ParseError None None []). split; [|reflexivity].
  change [ParseError None None []] with (concat [[ParseError None None []]]). constructor; [discriminate|]. repeat constructor.
Qed.
Print Assumptions C81_nowhere_refuted.

(** <?php /** @ */ f( ) ; with an error in the comment and two in the code *)
Definition broken_text : gostr := B "<?php /** @ */ f(,) ;" ++ [LF] ++ B "} g();".
Definition in_comment : parse_error := ParseError (Some (Tok (TkOther 1) 10 1)) None [].
Definition at_comma : parse_error := ParseError (Some (Tok TkComma 17 1)) (Some (B "CloseParenthesis")) [Tok TkComma 17 1].
Definition at_brace : parse_error := ParseError (Some (Tok (TkOther 2) 22 1)) None [].
Definition broken : tree :=
  TPhrase PhStatementList
    [TPhrase PhDocumentComment [TError in_comment];
     TPhrase PhExpressionStatement [TPhrase PhFunctionCallExpression [TToken (Tok TkName 15 1); TPhrase PhArgumentExpressionList [TError at_comma]]];
     TError at_brace; TPhrase PhExpressionStatement [TToken (Tok TkName 24 1)]].
Definition spoken (t : token_type) : gostr := match t with TkComma => B "Comma" | _ => B "CloseBrace" end.
Example C81_hypotheses_met : let d := SyntaxModel.Doc (SetText broken_text) (plain broken) [] in
  ascii broken_text /\ no_lone_cr broken_text /\
  errors_of broken [at_comma; at_brace] /\ Forall placed_error [at_comma; at_brace] /\
  (forall first last, error_tokens at_comma first last -> not_in_crlf broken_text (t_offset first) /\ not_in_crlf broken_text (t_end last)) /\
  GetParserDiagnostics spoken d broken = Some
    [Diag (Rng (Pos 0 17) (Pos 0 18)) (B "Unexpected Comma. Expected CloseParenthesis.") SeverityError [];
     Diag (Rng (Pos 1 0) (Pos 1 1)) (B "Unexpected CloseBrace.") SeverityError []].
Proof.
  cbv zeta. split; [intros b I; vm_compute in I; repeat (destruct I as [<-|I]; [vm_compute; reflexivity|]); destruct I|]. split.
  { intros a b E. exfalso. assert (I : In CR broken_text) by (rewrite E; apply in_or_app; right; left; reflexivity). vm_compute in I. repeat (destruct I as [I|I]; [discriminate I|]). exact I. }
  split; [change [at_comma; at_brace] with (concat [[]; concat [concat [[]; concat [[at_comma]]]]; [at_brace]; concat [[]]]); repeat (constructor; try discriminate)|].
  split; [constructor; [right; discriminate|constructor; [right; discriminate|constructor]]|]. split; [|vm_compute; reflexivity].
  intros first last ((rest & Ec) & front & El). cbn in Ec, El. injection Ec as <- <-. destruct front as [|x [|y front]]; cbn in El; try discriminate El. injection El as <-. cbn [t_offset t_end t_length].
  split; [exists (firstn 17 broken_text), (skipn 17 broken_text)|exists (firstn 18 broken_text), (skipn 18 broken_text)];
    (split; [symmetry; apply firstn_skipn|]; split; [vm_compute; reflexivity|]; intros x X; assert (L : last (x ++ [CR]) NUL = CR) by (apply last_last); rewrite <- X in L; vm_compute in L; discriminate L).
Qed.

(** ** C82 what the editor shows is up to date *)
(** If nobody types while the hints are searched, the editor shows, for each file that was
    opened, the errors of its text, and the hints are missing or those of its text. *)
Theorem C82_errors_current_partial : forall {doc diag world} (immediate : doc -> list diag) (deprecated : world -> doc -> list diag) h s u d since,
  run immediate deprecated start h = Some s -> prompt 0 h -> text_is h u d since -> at_rest s ->
  exists extra, shows s u (immediate d ++ extra) /\ (extra = [] \/ exists i w, In (Compute i w) since /\ extra = deprecated w d).
Proof.
  intros doc diag world immediate deprecated h s u d since R P T (Rh & _).
  destruct (prompt_fresh immediate deprecated h [] start s (fresh_start immediate deprecated) P R u d since T) as (_ & _ & _ & [(d' & X)|X]); [congruence|exact X].
Qed.
Print Assumptions C82_errors_current_partial.

(** For the file that was changed last the hints are shown as well, those found after the
    change, however much was typed: the timer starts the searches one after the other, and
    if they also end in this order nothing older is shown. *)
Theorem C82_last_file_partial : forall {doc diag world} (immediate : doc -> list diag) (deprecated : world -> doc -> list diag) h s u d since,
  run immediate deprecated start h = Some s -> timely false h -> in_turn h -> last_changed h u d since -> settled s ->
  exists i w, In (Compute i w) since /\ shows s u (immediate d ++ deprecated w d).
Proof.
  intros doc diag world immediate deprecated h s u d since R Ti Tu L ((Sh & Sj) & Sp).
  destruct (in_turn_phase immediate deprecated h [] start s false (phase_start immediate deprecated) (fun _ => eq_refl) Ti Tu R u d since L) as [X|[(_ & _ & older & j & X & _)|(_ & _ & _ & hints & (i & w & I & ->) & Show)]].
  - congruence.
  - rewrite Sj in X. destruct older; discriminate X.
  - exists i, w. auto.
Qed.
Print Assumptions C82_last_file_partial.

(** what is shown is one list *)
Theorem C82_one_answer : forall {doc diag} (s : server doc diag) u l l', shows s u l -> shows s u l' -> l = l'.
Proof.
  intros doc diag s u l l' (n & o & E & N) (n' & o' & E' & N'). rewrite E in E'. clear E s. revert n' E' N'. induction n as [|x n IH]; intros [|y n'] E' N'; cbn in E'.
  - injection E' as <- _. reflexivity.
  - injection E' as <- _. destruct (N' l (or_introl eq_refl)).
  - injection E' as -> _. destruct (N l' (or_introl eq_refl)).
  - injection E' as -> E'. apply (IH (fun x I => N x (or_intror I)) n' E'). intros x I. exact (N' x (or_intror I)).
Qed.
Print Assumptions C82_one_answer.

Definition file_a : gostr := B "file:///w/a.php".
Definition file_b : gostr := B "file:///w/b.php".
(** versions of documents are numbers, and so are diagnostics: [n] is an error of the
    version [n] and [100 + n] a hint about it *)
Definition its_errors (n : nat) : list nat := [n].
Definition its_hints (_ : unit) (n : nat) : list nat := [100 + n].
Definition after (h : list (event nat unit)) : option (server nat nat) := run its_errors its_hints start h.
Ltac none := let I := fresh in intros ? I; cbn in I; repeat (destruct I as [I|I]; [discriminate I|]); exact I.
Ltac none2 := let I := fresh in intros ? ? I; cbn in I; repeat (destruct I as [I|I]; [discriminate I|]); exact I.
Ltac turn := let I := fresh in intros ? I; cbn in I; repeat (destruct I as [I|I]; [first [discriminate I|injection I as <-; reflexivity]|]); destruct I.

(** Two edits of a file, each followed by the search for hints *)
Example C82_hypotheses_met : exists s since,
  let h := [Change file_a 1; Publish; Fire; Change file_a 2; Compute 0 tt; Publish; Send 0; Fire; Compute 0 tt; Send 0] in
  after h = Some s /\ timely false h /\ in_turn h /\ last_changed h file_a 2 since /\ settled s /\ shows s file_a [2; 102].
Proof.
  eexists _, _. cbv zeta. split; [vm_compute; reflexivity|]. split; [cbn; auto|]. split; [turn|]. split; [exists [Change file_a 1; Publish; Fire]; split; [reflexivity|none2]|].
  split; [repeat split|]. exists [], (skipn 1 [(file_a, [2; 102]); (file_a, [1; 101]); (file_a, [2]); (file_a, [1])]). split; [reflexivity|intros l' []].
Qed.
(** two files opened one after the other *)
Example C82_prompt_met : exists s since,
  let h := [Change file_a 1; Publish; Fire; Compute 0 tt; Send 0; Change file_b 2; Publish] in
  after h = Some s /\ prompt 0 h /\ text_is h file_a 1 since /\ at_rest s /\ shows s file_a [1; 101] /\ shows s file_b [2].
Proof.
  eexists _, _. cbv zeta. split; [vm_compute; reflexivity|]. split; [cbn; auto|]. split; [exists []; split; [reflexivity|none]|]. split; [repeat split|]. split.
  - exists [(file_b, [2])], [(file_a, [1])]. split; [reflexivity|none].
  - exists [], [(file_a, [1; 101]); (file_a, [1])]. split; [reflexivity|none].
Qed.

(** There is one timer for all files: if a second file is opened within two seconds, the
    hints of the first are never shown. *)
Theorem C82_other_file_refuted : exists h s since, after h = Some s /\ prompt 0 h /\ timely false h /\ in_turn h /\ text_is h file_a 1 since /\ settled s /\
  shows s file_a (its_errors 1) /\ forall w, ~ shows s file_a (its_errors 1 ++ its_hints w 1).
Proof.
  exists [Change file_a 1; Publish; Change file_b 2; Publish; Fire; Compute 0 tt; Send 0]. eexists _, _. split; [vm_compute; reflexivity|]. split; [cbn; auto|]. split; [cbn; auto|]. split; [turn|].
  split; [exists []; split; [reflexivity|none]|]. split; [repeat split|].
  assert (S : shows (doc := nat) (Server None None [] [(file_b, [2; 102]); (file_b, [2]); (file_a, [1])]) file_a (its_errors 1)) by (exists [(file_b, [2; 102]); (file_b, [2])], []; split; [reflexivity|none]).
  split; [exact S|]. intros w S'. pose proof (C82_one_answer _ _ _ _ S S') as X. discriminate X.
Qed.
Print Assumptions C82_other_file_refuted.

(** A slow search ends after a newer one: the errors and hints of the old text are shown
    again, and stay. *)
Theorem C82_overtaken_refuted : exists h s since, after h = Some s /\ timely false h /\ last_changed h file_a 2 since /\ settled s /\ shows s file_a (its_errors 1 ++ its_hints tt 1).
Proof.
  exists [Change file_a 1; Publish; Fire; Change file_a 2; Publish; Fire; Compute 0 tt; Compute 1 tt; Send 1; Send 0]. eexists _, _. split; [vm_compute; reflexivity|]. split; [cbn; auto|].
  split; [exists [Change file_a 1; Publish; Fire]; split; [reflexivity|none2]|]. split; [repeat split|]. exists [], [(file_a, [2; 102]); (file_a, [2]); (file_a, [1])]. split; [reflexivity|none].
Qed.
Print Assumptions C82_overtaken_refuted.

(** The file is edited while its hints are searched, then another one is: the errors of
    the old text are shown and stay, even if all searches end in turn. *)
Theorem C82_stale_refuted : exists h s since, after h = Some s /\ timely false h /\ in_turn h /\ text_is h file_a 2 since /\ settled s /\ shows s file_a (its_errors 1 ++ its_hints tt 1).
Proof.
  exists [Change file_a 1; Publish; Fire; Change file_a 2; Publish; Change file_b 3; Publish; Compute 0 tt; Send 0; Fire; Compute 0 tt; Send 0]. eexists _, _. split; [vm_compute; reflexivity|]. split; [cbn; auto|]. split; [turn|].
  split; [exists [Change file_a 1; Publish; Fire]; split; [reflexivity|none]|]. split; [repeat split|]. exists [(file_b, [3; 103])], [(file_b, [3]); (file_a, [2]); (file_a, [1])]. split; [reflexivity|none].
Qed.
Print Assumptions C82_stale_refuted.
