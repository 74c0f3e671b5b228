(** Claims about the uses of names that the analysis finds. *)
From Coq Require Import String.
From Coq Require Import List Bool ZArith Lia.
From Coq.Strings Require Import Byte.
From Verif Require Import Base.Bytes Base.BytesProofs Base.Protocol Symbols.Symbols Symbols.KeysModel Text.TextModel
  Types.TypesModel Rpc.StreamModel Rpc.StreamSpec Store.Examples
  Analyse.SyntaxModel Analyse.AnalyseModel Analyse.AnalyseSpec Analyse.DeclareSpec Analyse.DeclareProofs
  Analyse.UseSpec Analyse.UseProofs Analyse.Examples.
Import ListNotations.
Open Scope list_scope.
Open Scope nat_scope.

(** ** C75 every use of a name is found *)
(** What is missing: uses in the parts of a file that are not read, see below. *)
Theorem C75_uses_found_partial : forall {TX : Text} {TR : TrimSpace} d s n k name at_,
  analyse d = Done tt s -> is_read d n -> uses d n k name at_ -> use_reported d k name at_ (st_out s).
Proof. exact uses_reported. Qed.
Print Assumptions C75_uses_found_partial.

(** *** Where it applies *)
Definition names_define {TX : Text} (d : document) (k : node) : bool :=
  match k with
  | Ph (PhQualifiedName | PhFullyQualifiedName) _ =>
      match GetNodeText d k with Some s => str_eqb (to_lower s) (B "define") || str_eqb (to_lower s) (BSL :: B "define") | None => false end
  | _ => false
  end.
Lemma not_define : forall {TX : Text} d kids, existsb (names_define d) kids = false -> ~ calls_define d kids.
Proof.
  intros TX d kids H (ty & ks & s & I & Ty & Nm & L). enough (X : existsb (names_define d) kids = true) by congruence.
  apply existsb_exists. exists (Ph ty ks). split; [exact I|]. unfold names_define. unfold named in Nm.
  destruct Ty as [-> | ->]; rewrite Nm; apply orb_true_iff; destruct L as [-> | ->]; [left|right|left|right]; apply str_eqb_eq; reflexivity.
Qed.
Ltac member := vm_compute; repeat (first [left; reflexivity|right]).
Definition the_method : node := nth 2 (node_kids (nth 2 (node_kids (nth 2 (node_kids (nth 4 (node_kids (d_root (file shop))) (Err None))) (Err None))) (Err None))) (Err None).
Definition call_of_store : node := nth 4 (node_kids (nth 0 (node_kids (nth 0 (node_kids (nth 2 (node_kids (nth 2 (node_kids the_method) (Err None))) (Err None))) (Err None))) (Err None))) (Err None).
(** "store($item)" in the method of the example *)
Example C75_hypotheses_met : exists s, @analyse ascii_text ascii_trim_space (file shop) = Done tt s /\
  @is_read ascii_text (file shop) call_of_store /\
  @uses ascii_text (file shop) call_of_store AFunctionCall (B "store") (nth 0 (node_kids call_of_store) (Err None)).
Proof.
  eexists. split; [vm_compute; reflexivity|]. split.
  - exists (nth 4 (node_kids (d_root (file shop))) (Err None)). split; [member|].
    eapply reads_more; [eapply reads_more; [eapply reads_more; [eapply reads_more; [eapply reads_more; [eapply reads_more; [apply reads_it|]|]|]|]|]|].
    + eapply (reads_body _ PhClassDeclaration PhClassDeclarationBody _ _ (Ph PhClassMemberDeclarationList _)); [reflexivity|member|member].
    + eapply (reads_part _ PhClassMemberDeclarationList _ (Ph PhMethodDeclaration _)); [reflexivity|member].
    + eapply (reads_body _ PhMethodDeclaration PhMethodDeclarationBody _ _ (Ph PhStatementList _)); [reflexivity|member|member].
    + eapply (reads_part _ PhStatementList _ (Ph PhExpressionStatement _)); [reflexivity|member].
    + eapply (reads_part _ PhExpressionStatement _ (Ph PhSimpleAssignmentExpression _)); [reflexivity|member].
    + eapply (reads_assigned _ _ (Ph PhPropertyAccessExpression _)); [apply not_define; vm_compute; reflexivity| |discriminate].
      eexists [Tk _], (Tk _), [Tk _], []. split; [vm_compute; reflexivity|].
      repeat split; repeat constructor; try (eexists; split; reflexivity); discriminate.
  - eapply (uses_function _ _ _ (B "store")); [apply not_define|]; vm_compute; reflexivity.
Qed.

(** *** What is not read *)
(** a call of [f] somewhere in the file of which nothing is reported *)
Definition call_missed (d : document) : Prop := exists n at_ s, below n (d_root d) /\ @uses ascii_text d n AFunctionCall (B "f") at_ /\
  @analyse ascii_text ascii_trim_space d = Done tt s /\ ~ use_reported d AFunctionCall (B "f") at_ (st_out s).
Definition first_call (d : document) : node :=
  match find (fun n => match n with Ph PhFunctionCallExpression _ => true | _ => false end) (nodes (d_root d)) with Some n => n | None => Err None end.
Lemma missed : forall d c kids, first_call d = Ph PhFunctionCallExpression (c :: kids) -> @names_define ascii_text d c = false ->
  existsb (@names_define ascii_text d) kids = false -> named d c (B "f") ->
  match @analyse ascii_text ascii_trim_space d with
  | Done _ s => forallb (fun a => match a_kind a with AFunctionCall => false | _ => true end) (flat_map symbols_in (st_out s)) | _ => false end = true ->
  call_missed d.
Proof.
  intros d c kids F D1 D2 Nm H. unfold first_call in F. destruct (find _ _) as [n|] eqn:E; [|discriminate F]. subst n. apply find_some in E as (I & _).
  destruct (@analyse ascii_text ascii_trim_space d) as [[] s| |] eqn:Ea; try discriminate H.
  exists (Ph PhFunctionCallExpression (c :: kids)), c, s. split; [exact (nodes_below _ _ I)|]. split; [|split; [exact Ea|]].
  - apply uses_function; [|exact Nm]. apply not_define. cbn [existsb]. rewrite D1, D2. reflexivity.
  - intros (a & Ia & Ka & _). rewrite forallb_forall in H. specialize (H a Ia). rewrite Ka in H. discriminate H.
Qed.
(** a block behind "finally" *)
Definition finally_f : src := php [P PhTryStatement [word "try"; sp; P PhCompoundStatement [word "{"; sp; word "}"]; sp;
  P (PhOther 0) [word "finally"; sp; P PhCompoundStatement [word "{"; sp; P PhStatementList [statement (call "f" [])]; sp; word "}"]]]].
Theorem C75_finally_refuted : exists d, text_of d = B "<?php try { } finally { f(); }" /\ call_missed d.
Proof.
  exists (file finally_f). split; [vm_compute; reflexivity|].
  eapply missed; [vm_compute; reflexivity|vm_compute; reflexivity|vm_compute; reflexivity|vm_compute; reflexivity|vm_compute; reflexivity].
Qed.
Print Assumptions C75_finally_refuted.
Ltac missed_in f := exists (file f); split; [vm_compute; reflexivity|]; eapply missed; [vm_compute; reflexivity|vm_compute; reflexivity|vm_compute; reflexivity|vm_compute; reflexivity|vm_compute; reflexivity].
(** the operator "??" *)
Definition coalesce_f : src := php [P PhReturnStatement [word "return"; sp; P (PhOther 1) [var "$x"; sp; word "??"; sp; call "f" []]; word ";"]].
Theorem C75_coalesce_refuted : exists d, text_of d = B "<?php return $x ?? f();" /\ call_missed d.
Proof. missed_in coalesce_f. Qed.
Print Assumptions C75_coalesce_refuted.
(** a call with an index behind it whose method is called *)
Definition subscript_f : src := php [statement (P PhMethodCallExpression
  [P PhSubscriptExpression [call "f" []; word "["; T (TkOther 2) "0"; word "]"]; T TkArrow "->"; P PhMemberName [T TkName "g"];
   P PhArgumentExpressionList [T TkOpenParenthesis "("; T TkCloseParenthesis ")"]])].
Theorem C75_subscript_refuted : exists d, text_of d = B "<?php f()[0]->g();" /\ call_missed d.
Proof. missed_in subscript_f. Qed.
Print Assumptions C75_subscript_refuted.
(** what is behind "+=", for any operator but "." *)
Definition plus_f : src := php [statement (P PhCompoundAssignmentExpression [var "$x"; sp; word "+="; sp; call "f" []])].
Theorem C75_compound_refuted : exists d, text_of d = B "<?php $x += f();" /\ call_missed d.
Proof. missed_in plus_f. Qed.
Print Assumptions C75_compound_refuted.
(** the names behind the "extends" of an interface are not reported as uses *)
Definition interface_extends_j : src := php [P PhInterfaceDeclaration
  [P PhInterfaceDeclarationHeader [word "interface"; sp; T TkName "I"; sp; P PhInterfaceBaseClause [word "extends"; sp; P PhQualifiedNameList [name "J"]]]; sp;
   P PhInterfaceDeclarationBody [word "{"; word "}"]]].
Theorem C75_interface_extends_refuted : exists d s, text_of d = B "<?php interface I extends J {}" /\
  @analyse ascii_text ascii_trim_space d = Done tt s /\ map a_kind (flat_map symbols_in (st_out s)) = [AInterface].
Proof. eexists (file interface_extends_j), _. split; [vm_compute; reflexivity|split; vm_compute; reflexivity]. Qed.
Print Assumptions C75_interface_extends_refuted.
