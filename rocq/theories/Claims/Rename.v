(** Claims about the renaming of variables, and about the variables of analysed files. *)
From Coq Require Import String.
From Coq Require Import List Bool ZArith Lia Permutation.
From Coq.Strings Require Import Byte.
From Verif Require Import Base.Bytes Base.BytesProofs Base.Protocol Symbols.Symbols Symbols.KeysModel Text.TextModel Text.PositionModel Text.PositionSpec
  Types.TypesModel Types.ImportModel Rpc.StreamModel Rpc.StreamSpec Ide.VariableModel Ide.VariableSpec
  Analyse.SyntaxModel Analyse.AnalyseModel Analyse.AnalyseSpec Analyse.DeclareSpec Analyse.UseSpec Analyse.Examples Store.FilterModel Store.Examples
  Whole.IndexSpec Whole.IndexProofs Whole.CursorModel Whole.CursorSpec Whole.CursorProofs
  Rename.TraceSpec Rename.TraceProofs Rename.RecordSpec Rename.RenameModel Rename.RenameSpec Rename.RenameProofs Rename.CompleteProofs
  Claims.Analyse.
From Verif Require Ide.UnusedProofs Claims.Ide Claims.Cursor Claims.Uses.
Import ListNotations.
Open Scope list_scope.
Open Scope nat_scope.

(** ** C89 renaming a variable *)
Section Claims.
Context {TX : Text} {TR : TrimSpace}.
(** the file, or a function, method or closure around the position *)
Definition surrounds (d : document) (pos : position) (f : node) : Prop :=
  f = d_root d \/ function_node f /\ below f (d_root d) /\ inside pos (NodeRange d f).
(** a variable with this name is written at [m] *)
Definition variable_at (d : document) (m : node) (name : gostr) : Prop := variable_node m /\ GetNodeText d m = Some name.

(** The edits are those of the recorded occurrences of the name in the innermost
    function around the cursor: all of them, each as often as it was recorded. *)
Theorem C89_recorded : forall d s pos new a, analyse d = Done tt s ->
  HasTypesAtPos (st_out s) pos = Some a -> a_kind a = AVariable ->
  exists i, innermost (scopes 1 [0%nat] (st_vars s)) pos i /\
    Permutation (rename d s pos new)
      (map (fun o => Edit (v_range (oc_var o)) new) (occurrences (scoped 1 [0%nat] (st_vars s)) i (ts_original (a_name a)))).
Proof.
  intros d s pos new a A H K. pose proof (trace_balanced0 d _ _ _ (analyse_trace d s A)) as Ba.
  destruct (table_at (NodeRange d (d_root d)) (st_vars s) pos Ba) as (i & t & G & E & In_ & V). exists i. split; [exact In_|].
  unfold rename. rewrite H, K. unfold tables_of. rewrite G, E, V.
  pose proof (contextual_occurrences (UnusedProofs.sel i (scoped 1 [0%nat] (st_vars s))) (ts_original (a_name a))) as P.
  apply (Permutation_map (fun v => Edit (v_range v) new)) in P. rewrite !map_map in P. rewrite occurrences_sel. exact P.
Qed.

(** Without a variable under the cursor nothing is changed. Otherwise there is the
    innermost function around the cursor (or, if there is none, the file).
    Every edit replaces, by the new name, a variable with the name under the
    cursor that is written in it. And all the variables with this name in its own
    code, and its parameters with this name, are replaced. *)
Theorem C89_edits_partial : forall d s pos new, trim_ok TR -> analyse d = Done tt s -> rename d s pos new <> [] ->
  exists v name f, below v (d_root d) /\ touches pos (NodeRange d v) /\ variable_at d v name /\
    encloses d pos f /\ (forall g, own_code d f g -> function_node g -> ~ inside pos (NodeRange d g)) /\
    (forall e, In e (rename d s pos new) -> te_text e = new /\
      (name <> [] -> exists m, below m (node_of d f) /\ te_range e = NodeRange d m /\ variable_at d m name)) /\
    (forall m from, variable_of d f m from -> GetNodeText d m = Some name -> In (Edit (NodeRange d m) new) (rename d s pos new)).
Proof.
  intros d s pos new TOK A N. destruct (HasTypesAtPos (st_out s) pos) as [a|] eqn:H; [|unfold rename in N; rewrite H in N; destruct (N eq_refl)].
  assert (K : a_kind a = AVariable) by (unfold rename in N; rewrite H in N; destruct (a_kind a); solve [reflexivity|destruct (N eq_refl)]).
  destruct (found_sound _ _ _ H) as (I & _ & T). apply in_flat_map in I as (x & Ix & Ia). pose proof (C70_symbols_come_from_the_file d s TOK A) as F.
  rewrite Forall_forall in F. destruct (preorder_written d x (d_root d) a (F x Ix) Ia) as [(v & Bl & S)|([E|E] & _)]; [|congruence|congruence].
  unfold says in S. rewrite K in S. destruct S as (Ty & At & Nm). unfold sits_at in At. rewrite At in T.
  destruct (C89_recorded d s pos new a A H K) as (i & In_ & P).
  destruct (innermost_function d s pos i A In_) as (f & Ef & Nf & Wr & Al).
  exists v, (ts_original (a_name a)), f. split; [exact Bl|]. split; [exact T|]. split.
  { split; [|exact Nm]. destruct v as [ty ks| |]; cbn [node_type] in Ty; [|destruct Ty; discriminate|destruct Ty; discriminate].
    destruct Ty as [Ty|Ty]; injection Ty as ->; exact Logic.I. }
  split; [exact Ef|]. split; [exact Nf|]. split.
  - intros e Ie. apply (Permutation_in _ P) in Ie. apply in_map_iff in Ie as (o & <- & Io).
    split; [reflexivity|]. intros Ne. unfold occurrences in Io. apply in_map_iff in Io as ((j, o') & E & Io). cbn [snd] in E. subst o'.
    apply filter_In in Io as (Io & X). cbn [fst snd] in X. apply andb_true_iff in X as (X1 & X2). apply Nat.eqb_eq in X1. apply str_eqb_eq in X2. subst j.
    destruct (Wr o Io) as [E|(m & Bm & Vm & R & Tx)]; [unfold oc_name in X2; congruence|]. exists m. cbn [te_range]. split; [exact Bm|]. split; [exact R|].
    split; [exact Vm|]. rewrite <- X2. exact Tx.
  - intros m st M Tx. destruct (Al m _ st M Tx) as (dc & Io). apply (Permutation_in _ (Permutation_sym P)). apply in_map_iff.
    exists (Occ (MkVar (ts_original (a_name a)) (NodeRange d m)) st dc). split; [reflexivity|]. unfold occurrences. apply in_map_iff.
    eexists (_, _). split; [reflexivity|]. apply filter_In. split; [exact Io|]. cbn [fst snd]. rewrite Nat.eqb_refl. apply str_eqb_eq. reflexivity.
Qed.

(** *** C40 and C41 in an analysed file *)
(** The variables offered at a position of a file are written in a function
    around it (or, if there is none, in the file), and each is the latest of its
    name that starts before the position. *)
Theorem C40_file : forall d s pos, analyse d = Done tt s -> exists i t f,
  GetVariableTableAt (tables_of d s) pos = Some i /\ List.nth_error (vd_tables (tables_of d s)) i = Some t /\
  innermost (scopes 1 [0%nat] (st_vars s)) pos i /\ surrounds d pos f /\
  forall v, In v (GetVariables (vt_vars t) pos) ->
    (v_name v <> [] -> exists m, below m f /\ v_range v = NodeRange d m /\ variable_at d m (v_name v)) /\
    exists o, latest (map snd (List.filter (fun x => Nat.eqb (fst x) i) (scoped 1 [0%nat] (st_vars s)))) (v_name v) (fun start => before start pos) o /\ oc_var o = v.
Proof.
  intros d s pos A. pose proof (trace_balanced0 d _ _ _ (analyse_trace d s A)) as Ba.
  destruct (table_at (NodeRange d (d_root d)) (st_vars s) pos Ba) as (i & t & G & E & In_ & V).
  destruct (trace_scope_node d _ _ _ pos i (analyse_trace d s A) (proj1 In_)) as (f & Sf & Wr). exists i, t, f.
  split; [exact G|]. split; [exact E|]. split; [exact In_|]. split; [exact Sf|]. intros v Iv. rewrite V in Iv. apply Claims.Ide.C40_variables_offered in Iv as (o & L & <-).
  split; [|exists o; split; [exact L|reflexivity]]. intros Ne. destruct L as (a & b & Eq & _). assert (Io : In o (UnusedProofs.sel i (scoped 1 [0%nat] (st_vars s)))) by (rewrite Eq; apply in_elt).
  unfold UnusedProofs.sel in Io. apply in_map_iff in Io as ((j, o') & E' & Io). cbn [snd] in E'. subst o'. apply filter_In in Io as (Io & X). apply Nat.eqb_eq in X. cbn [fst] in X. subst j.
  destruct (Wr o Io) as [N|(m & Bm & Vm & R & Tx)]; [congruence|]. exists m. split; [exact Bm|]. split; [exact R|]. split; [exact Vm|exact Tx].
Qed.
(** The functions of a file open and close in pairs. *)
Theorem C41_file_partial : forall d s, analyse d = Done tt s -> in_order (scoped 1 [0%nat] (st_vars s)) ->
  Permutation (UnusedVariables (tables_of d s)) (unread (scoped 1 [0%nat] (st_vars s))).
Proof.
  intros d s A O. apply Claims.Ide.C41_unused_partial; [|exact O]. exact (trace_balanced0 d _ _ _ (analyse_trace d s A)).
Qed.
End Claims.
Print Assumptions C40_file.
Print Assumptions C41_file_partial.
Print Assumptions C89_recorded.
Print Assumptions C89_edits_partial.

(** <?php $a; function f($a) { $a; } $a; *)
Definition params (l : list src) : src := P PhParameterDeclarationList (map (fun p => P PhParameterDeclaration [p]) l).
Definition renamed : src := php [statement (var "$a"); sp;
  P PhFunctionDeclaration [P PhFunctionDeclarationHeader [T TkFunction "function"; sp; T TkName "f"; word "("; params [T TkVariableName "$a"]; word ")"]; sp;
    P PhFunctionDeclarationBody [P PhCompoundStatement [word "{"; sp; P PhStatementList [statement (var "$a")]; sp; word "}"]]]; sp;
  statement (var "$a")].
Ltac start f s E := destruct (C69_no_crash_partial (TX := ascii_text) f ascii_trim_ok) as (s & E); [apply well_parsedb_ok; vm_compute; reflexivity|]; exists s.
Ltac known f s E := split; [exact E|]; let X := fresh in assert (X : Done tt s = @analyse ascii_text ascii_trim_space f) by (symmetry; exact E); vm_compute in X; injection X as ->.
Tactic Notation "analysed" constr(f) := let s := fresh in let E := fresh in start f s E; known f s E.
Tactic Notation "analysed" constr(f) constr(a) := let s := fresh in let E := fresh in start f s E; exists a; known f s E.
Tactic Notation "analysed" constr(f) constr(a) constr(b) constr(c) := let s := fresh in let E := fresh in start f s E; exists a, b, c; known f s E.
Definition col (c : nat) : position := Pos 0 (Z.of_nat c).
Definition cols (a b : nat) : range := Rng (col a) (col b).
(** <?php try { } catch (E $e) { $e; } *)
Definition caught : src := php [P PhTryStatement [word "try"; sp; P PhCompoundStatement [word "{"; sp; word "}"]; sp;
  P PhCatchClauseList [P PhCatchClause [word "catch"; sp; word "("; P PhCatchNameList [Examples.name "E"]; sp; T TkVariableName "$e"; word ")"; sp;
    P PhCompoundStatement [word "{"; sp; P PhStatementList [statement (var "$e")]; sp; word "}"]]]]].
(** <?php $x; function () use ($x) { $x; }; *)
Definition captured (reference : list src) : src := php [statement (var "$x"); sp;
  statement (P PhAnonymousFunctionCreationExpression [P PhAnonymousFunctionHeader [T TkFunction "function"; sp; word "("; word ")"; sp;
      P PhAnonymousFunctionUseClause [word "use"; sp; word "("; P PhClosureUseList [P PhAnonymousFunctionUseVariable (reference ++ [T TkVariableName "$x"])]; word ")"]]; sp;
    P PhFunctionDeclarationBody [P PhCompoundStatement [word "{"; sp; P PhStatementList [statement (var "$x")]; sp; word "}"]]])].
Example C89_hypotheses_met : exists s, @analyse ascii_text ascii_trim_space (file renamed) = Done tt s /\
  source renamed = B "<?php $a; function f($a) { $a; } $a;" /\
  rename (file renamed) s (col 27) (B "$n") = [Edit (cols 21 23) (B "$n"); Edit (cols 27 29) (B "$n")] /\
  rename (file renamed) s (col 6) (B "$n") = [Edit (cols 6 8) (B "$n"); Edit (cols 33 35) (B "$n")].
Proof. analysed (file renamed). vm_compute. repeat split; reflexivity. Qed.
Example C40_file_hypotheses_met : exists s, @analyse ascii_text ascii_trim_space (file renamed) = Done tt s /\
  GetVariableTableAt (tables_of (file renamed) s) (col 31) = Some 1 /\
  (exists t, List.nth_error (vd_tables (tables_of (file renamed) s)) 1 = Some t /\ GetVariables (vt_vars t) (col 31) = [MkVar (B "$a") (cols 27 29)]) /\
  in_order (scoped 1 [0%nat] (st_vars s)) /\ UnusedVariables (tables_of (file renamed) s) = [].
Proof.
  analysed (file renamed). split; [vm_compute; reflexivity|]. split; [eexists; split; vm_compute; reflexivity|]. split; [|vm_compute; reflexivity].
  intros a x u b E' D o I N. cbn in E'.
  repeat (destruct a as [|? a]; cbn in E'; [injection E' as E1 E2 E3; subst; try discriminate D; cbn in I; repeat (destruct I as [I|I]; [inversion I; subst; try discriminate N; unfold before; cbn; lia|]); destruct I|]; injection E' as ? E'; subst); destruct a; discriminate E'.
Qed.

(** *** Where the full statement is false *)
(** Full statement: the edits replace all the occurrences of the variable under
    the cursor. The variable that a catch clause declares keeps its old name: no
    function is in the file, both variables have the same name. *)
Definition way (d : document) (l : list nat) : node := Claims.Cursor.at_way (d_root d) l.
Definition function_nodeb (n : node) : bool :=
  match n with Ph (PhFunctionDeclaration | PhMethodDeclaration | PhAnonymousFunctionCreationExpression) _ => true | _ => false end.
Lemma no_function : forall d, forallb (fun n => negb (function_nodeb n)) (nodes (d_root d)) = true -> forall f, below f (d_root d) -> ~ function_node f.
Proof.
  intros d H f Bl F. rewrite forallb_forall in H. specialize (H f (below_nodes _ _ Bl)). destruct f as [ty ks| |]; [|destruct F|destruct F]. destruct ty; try destruct F; discriminate H.
Qed.
Theorem C89_catch_refuted : exists d s m, @analyse ascii_text ascii_trim_space d = Done tt s /\
  text_of d = B "<?php try { } catch (E $e) { $e; }" /\ (forall f, below f (d_root d) -> ~ function_node f) /\
  below m (d_root d) /\ variable_at d m (B "$e") /\ NodeRange d m = cols 23 25 /\
  rename d s (col 29) (B "$n") = [Edit (cols 29 31) (B "$n")].
Proof.
  exists (file caught). analysed (file caught) (way (file caught) [2; 4; 0; 5]).
  split; [vm_compute; reflexivity|]. split; [apply no_function; vm_compute; reflexivity|]. split; [apply Claims.Cursor.at_way_below|]. split; [split; vm_compute; reflexivity|]. split; vm_compute; reflexivity.
Qed.
Print Assumptions C89_catch_refuted.
(** *** The own code of a function *)
Lemma reads_kid : forall {TX : Text} d n i, match n with Ph ty kids => all_parts_read ty && (i <? length kids) | _ => false end = true -> reads d n (nth i (node_kids n) n).
Proof.
  intros TX d [ty kids| |] i H; try discriminate H. apply andb_true_iff in H as (A & L). apply Nat.ltb_lt in L. apply reads_part; [exact A|]. apply nth_In. exact L.
Qed.
Lemma reads_inner : forall {TX : Text} d n i j, match n with Ph ty kids => match nth i kids n with Ph part ks => has_body ty part && (j <? length ks) && (i <? length kids) | _ => false end | _ => false end = true ->
  reads d n (nth j (node_kids (nth i (node_kids n) n)) n).
Proof.
  intros TX d [ty kids| |] i j H; try discriminate H. cbn [node_kids]. destruct (nth i kids (Ph ty kids)) as [part ks| |] eqn:E; try discriminate H.
  apply andb_true_iff in H as (H & L). apply andb_true_iff in H as (A & L2). apply Nat.ltb_lt in L, L2. apply (reads_body d ty part kids ks); [exact A| |apply nth_In; exact L2].
  rewrite <- E. apply nth_In. exact L.
Qed.
(** <?php $a; function f($a) { $a; } $a; *)
Example C89_own_code_met : let d := file renamed in
  (* the function around the variable in it, and its own code *)
  encloses d (col 27) (Some (way d [4])) /\ own_code (TX := ascii_text) d (Some (way d [4])) (way d [4; 2; 0; 2; 0; 0]) /\
  parameter_of d (Some (way d [4])) (way d [4; 0; 4; 0; 0]) (col 24) /\ variable_at d (way d [4; 0; 4; 0; 0]) (B "$a") /\
  (* the variable before it is in the code of the file *)
  own_code (TX := ascii_text) d None (way d [2; 0]) /\
  forall n, n = way d [4; 2; 0; 2; 0; 0] \/ n = way d [2; 0] -> mentions (TX := ascii_text) d n n /\ variable_at d n (B "$a").
Proof.
  intros d. split; [|split; [|split; [|split; [|split]]]].
  - split; [exact Logic.I|]. split; [apply Claims.Cursor.at_way_below|]. unfold inside, before; vm_compute; intuition discriminate.
  - exists (way d [4; 2; 0]). split; [exact (reads_inner d (way d [4]) 2 0 eq_refl)|].
    apply (own_more d _ (way d [4; 2; 0; 2; 0])); [|intros F; vm_compute in F; exact F|exact (reads_kid d (way d [4; 2; 0; 2; 0]) 0 eq_refl)].
    apply (own_more d _ (way d [4; 2; 0; 2])); [|intros F; vm_compute in F; exact F|exact (reads_kid d (way d [4; 2; 0; 2]) 0 eq_refl)].
    apply (own_more d _ (way d [4; 2; 0])); [apply own_it|intros F; vm_compute in F; exact F|exact (reads_kid d (way d [4; 2; 0]) 2 eq_refl)].
  - exists PhFunctionDeclarationHeader, (node_kids (way d [4; 0])), (node_kids (way d [4; 0; 4])), [], (Claims.Cursor.the_token (way d [4; 0; 4; 0; 0])), [].
    split; [reflexivity|]. split; [vm_compute; tauto|]. split; [vm_compute; tauto|]. split; [vm_compute; tauto|]. split; [reflexivity|]. split; [intros u []|]. split; [reflexivity|vm_compute; reflexivity].
  - split; vm_compute; reflexivity.
  - exists (way d [2]). split; [vm_compute; tauto|].
    apply (own_more d _ (way d [2])); [apply own_it|intros F; vm_compute in F; exact F|exact (reads_kid d (way d [2]) 0 eq_refl)].
  - intros n [-> | ->]; (split; [|split; vm_compute; reflexivity]); vm_compute; apply mentions_variable; apply Claims.Uses.not_define; vm_compute; reflexivity.
Qed.
(** From outside of a closure its "use" is renamed, but not what it does with the
    variable; from inside, the variable that it takes keeps its name. *)
Theorem C89_closure_refuted : exists d s m f n, @analyse ascii_text ascii_trim_space d = Done tt s /\
  text_of d = B "<?php $x; function () use ($x) { $x; };" /\
  below f (d_root d) /\ function_node f /\ NodeRange d f = cols 10 38 /\
  below m f /\ variable_at d m (B "$x") /\ NodeRange d m = cols 33 35 /\
  below n (d_root d) /\ variable_at d n (B "$x") /\ NodeRange d n = cols 6 8 /\
  rename d s (col 6) (B "$n") = [Edit (cols 6 8) (B "$n"); Edit (cols 27 29) (B "$n")] /\
  rename d s (col 34) (B "$n") = [Edit (cols 27 29) (B "$n"); Edit (cols 33 35) (B "$n")].
Proof.
  pose (d := file (captured [])). exists d. unfold d.
  analysed (file (captured [])) (way d [4; 0; 2; 0; 2; 0; 0]) (way d [4; 0]) (way d [2; 0]).
  split; [vm_compute; reflexivity|]. split; [apply Claims.Cursor.at_way_below|]. split; [exact Logic.I|]. split; [vm_compute; reflexivity|].
  split; [exact (Claims.Cursor.at_way_below [2; 0; 2; 0; 0] (way d [4; 0]))|]. split; [split; vm_compute; reflexivity|]. split; [vm_compute; reflexivity|].
  split; [apply Claims.Cursor.at_way_below|]. split; [split; vm_compute; reflexivity|]. repeat split; vm_compute; reflexivity.
Qed.
Print Assumptions C89_closure_refuted.
(** With "use (&$x)" the variable has the name "&$x": its "&" is replaced, too,
    and it is neither the variable outside nor the one inside. *)
Theorem C89_reference_refuted : exists d s, @analyse ascii_text ascii_trim_space d = Done tt s /\
  text_of d = B "<?php $x; function () use (&$x) { $x; };" /\
  rename d s (col 6) (B "$n") = [Edit (cols 6 8) (B "$n")] /\
  rename d s (col 28) (B "$n") = [Edit (cols 27 30) (B "$n")] /\
  rename d s (col 34) (B "$n") = [Edit (cols 34 36) (B "$n")].
Proof. exists (file (captured [word "&"])). analysed (file (captured [word "&"])). vm_compute. repeat split; reflexivity. Qed.
Print Assumptions C89_reference_refuted.
(** At a parameter nothing is renamed. *)
Theorem C89_parameter_refuted : exists d s m, @analyse ascii_text ascii_trim_space d = Done tt s /\
  text_of d = B "<?php $a; function f($a) { $a; } $a;" /\
  below m (d_root d) /\ variable_at d m (B "$a") /\ NodeRange d m = cols 21 23 /\
  rename d s (col 21) (B "$n") = [].
Proof.
  exists (file renamed). analysed (file renamed) (way (file renamed) [4; 0; 4; 0; 0]).
  split; [vm_compute; reflexivity|]. split; [apply Claims.Cursor.at_way_below|]. split; [split; vm_compute; reflexivity|]. split; vm_compute; reflexivity.
Qed.
Print Assumptions C89_parameter_refuted.
