(** Claims about the completion of variables. *)
From Coq Require Import String.
From Coq Require Import List Bool NArith ZArith Lia.
From Coq.Strings Require Import Byte.
From Verif Require Import Base.Bytes Base.BytesProofs Base.Protocol Symbols.Symbols Symbols.KeysModel Text.TextModel Text.TextSpec Text.PositionModel Text.PositionSpec
  Types.TypesModel Types.ImportModel Rpc.StreamModel Words.TokeniserSpec Ide.VariableModel Ide.VariableSpec
  Analyse.SyntaxModel Analyse.AnalyseModel Analyse.AnalyseSpec Analyse.Examples Store.FilterModel Store.Examples
  Whole.CursorModel Whole.CursorSpec Whole.CursorProofs
  Analyse.DeclareSpec Analyse.UseSpec Rename.TraceSpec Rename.TraceProofs Rename.RecordSpec Rename.RenameModel Rename.RenameSpec Rename.RenameProofs Rename.CompleteProofs
  Completion.VarCompletionModel Completion.VarCompletionSpec Completion.VarCompletionProofs
  Claims.Analyse Claims.Rename.
From Verif Require Ide.UnusedProofs Ide.VariableProofs Claims.Ide Claims.Cursor Claims.Text Store.SearchModel Store.SearchProofs.
Import ListNotations.
Open Scope list_scope.
Open Scope nat_scope.

(** ** C92 completing a variable *)
Section Claims.
Context {TX : Text} {TR : TrimSpace}.
(** the cursor is in a variable of an expression, behind its "$"; it is not a
    static property *)
Definition in_variable (d : document) (pos : position) : Prop :=
  exists ty outer kids t, below (Ph ty outer) (d_root d) /\ ty <> PhScopedMemberName /\
    In (Ph PhSimpleVariable kids) outer /\ In (Tk t) kids /\ in_word d t pos.
(** the cursor is in a static property, behind its "$" *)
Definition in_static_property (d : document) (pos : position) : Prop :=
  exists outer kids t, below (Ph PhScopedMemberName outer) (d_root d) /\
    In (Ph PhSimpleVariable kids) outer /\ In (Tk t) kids /\ in_word d t pos.
(** no name of a class is found under the cursor *)
Definition no_class_name (s : state) (pos : position) : Prop :=
  forall a, HasTypesAtPos (st_out s) pos = Some a -> a_kind a <> AClassTypeDesignator /\ a_kind a <> AClassAccess /\ a_kind a <> ATypeDeclaration.
(** the symbol under the cursor stands at this place *)
Definition under_cursor (s : state) (pos : position) (r : range) : Prop := exists a, HasTypesAtPos (st_out s) pos = Some a /\ a_range a = r.

(** Behind a variable the names are offered, each once, which contain the word
    in front of the cursor and which were recorded, in the innermost function
    around the cursor (or, if there is none, in the file), to hold from before the cursor,
    unless the latest occurrence is the one under the cursor. *)
Theorem C92_offered_partial : forall text d s pos, analyse d = Done tt s -> d_text d = SetText text -> no_lone_cr text ->
  tokens_apart d -> in_variable d pos -> no_class_name s pos ->
  exists labels o l w i, completion d s pos = Some (Variables labels) /\
    OffsetAtPosition (d_text d) pos = Some (Z.of_nat o) /\ line_before text o l /\ last_word l w /\
    innermost (scopes 1 [0%nat] (st_vars s)) pos i /\ NoDup labels /\
    forall name, In name labels <->
      name <> B "$" /\ substring w name /\
      exists occ, latest (recorded_in (st_vars s) i) name (fun start => before start pos) occ /\ ~ under_cursor s pos (v_range (oc_var occ)).
Proof.
  intros text d s pos A T NC Ap (ty & outer & kids & t & Be & NS & Io & Ik & (z & Oz & Rz)) NCl.
  destruct (Claims.Text.C27_in_document text pos) as (o' & Eo & Bo).
  rewrite T in Oz. rewrite Eo in Oz. injection Oz as <-.
  destruct (Z_of_nat_complete o') as (o & ->); [lia|].
  destruct (word_at text pos o NC Eo ltac:(lia)) as (l & w & Ew & Hl & Hw).
  pose proof (trace_balanced0 d _ _ _ (analyse_trace d s A)) as Ba.
  destruct (table_at (NodeRange d (d_root d)) (st_vars s) pos Ba) as (i & tb & G & E & In_ & V).
  destruct (spine_in_in d _ _ _ _ t _ Ap Be Io Ik Rz) as (above & Sp).
  exists (variableCompletion d s pos w), o, l, w, i. split.
  { unfold completion. rewrite T, Ew, Eo, Sp. assert (CC : completes_class (HasTypesAtPos (st_out s) pos) = false).
    { unfold completes_class. destruct (HasTypesAtPos (st_out s) pos) as [a|] eqn:H; [|reflexivity]. destruct (NCl a H) as (X & Y & Z). destruct (a_kind a); try reflexivity; congruence. }
    rewrite CC. assert (CV : completes_variables (Ph PhSimpleVariable kids :: Ph ty outer :: above) = true) by (unfold completes_variables; destruct ty; try reflexivity; congruence).
    rewrite CV. reflexivity. }
  split; [rewrite T; exact Eo|]. split; [exact Hl|]. split; [exact Hw|]. split; [exact In_|].
  unfold variableCompletion, tables_of. rewrite G, E, V. split; [apply filter_names_once, variables_once, VariableProofs.of_ok|].
  intros name. assert (Fits : forall v, negb (left_out (HasTypesAtPos (st_out s) pos) w v) = true <->
    v_name v <> B "$" /\ substring w (v_name v) /\ ~ under_cursor s pos (v_range v)).
  { intros v. unfold left_out. rewrite negb_true_iff, !orb_false_iff, andb_false_iff, !negb_false_iff, SearchProofs.contains_iff, str_eqb_eq.
    assert (X : str_eqb (v_name v) (B "$") = false <-> v_name v <> B "$") by apply str_eqb_neq. rewrite X.
    assert (Y : match HasTypesAtPos (st_out s) pos with Some a => range_eqb (a_range a) (v_range v) | None => false end = false <-> ~ under_cursor s pos (v_range v)).
    { unfold under_cursor. destruct (HasTypesAtPos (st_out s) pos) as [a|].
      - split; [intros F (b & Eb & R); injection Eb as <-; apply range_eqb_eq in R; congruence|]. intros F. destruct (range_eqb _ _) eqn:R; [|reflexivity]. apply range_eqb_eq in R. destruct F. eauto.
      - split; [intros _ (b & Eb & _); discriminate Eb|reflexivity]. }
    rewrite Y. split; [intros ((P & Q) & R)|intros (P & R & Q)]; repeat split; auto. destruct R as [->|R]; [exists [], (v_name v); reflexivity|exact R]. }
  rewrite in_map_iff. split.
  - intros (v & <- & I). apply filter_In in I as [I F]. apply Fits in F as (F1 & F2 & F3). split; [exact F1|]. split; [exact F2|].
    apply Claims.Ide.C40_variables_offered in I as (occ & La & <-). exists occ. split; [exact La|exact F3].
  - intros (N & S & occ & La & U). exists (oc_var occ). assert (Nm : v_name (oc_var occ) = name) by (destruct La as (a & b & _ & X & _); exact X). split; [exact Nm|].
    apply filter_In. split; [|apply Fits; rewrite Nm; auto]. apply Claims.Ide.C40_variables_offered. exists occ. rewrite Nm. split; [exact La|reflexivity].
Qed.

(** A static property is not completed as a variable. *)
Theorem C92_static_property : forall text d s pos, d_text d = SetText text -> no_lone_cr text -> tokens_apart d -> in_static_property d pos ->
  completion d s pos = Some Others.
Proof.
  intros text d s pos T NC Ap (outer & kids & t & Be & Io & Ik & (z & Oz & Rz)).
  destruct (Claims.Text.C27_in_document text pos) as (o' & Eo & Bo). rewrite T in Oz. rewrite Eo in Oz. injection Oz as <-.
  destruct (Z_of_nat_complete o') as (o & ->); [lia|]. destruct (word_at text pos o NC Eo ltac:(lia)) as (l & w & Ew & _).
  destruct (spine_in_in d _ _ _ _ t _ Ap Be Io Ik Rz) as (above & Sp). unfold completion. rewrite T, Ew, Eo, Sp. destruct (completes_class _); reflexivity.
Qed.

(** What is offered is written in a function around the cursor (or in the file). *)
Theorem C92_written_partial : forall d s pos labels, analyse d = Done tt s -> completion d s pos = Some (Variables labels) ->
  exists f, surrounds d pos f /\ forall name, In name labels -> name <> [] -> exists m, below m f /\ variable_at d m name.
Proof.
  intros d s pos labels A C. destruct (C40_file d s pos A) as (i & t & f & G & E & _ & Sf & W). exists f. split; [exact Sf|]. intros name I Ne.
  unfold completion in C. destruct (WordAtPos (d_text d) pos) as [w|]; [|discriminate C]. destruct (OffsetAtPosition (d_text d) pos) as [o|]; [|discriminate C].
  assert (L : labels = variableCompletion d s pos w).
  { injection C as C. destruct (completes_class _); [discriminate C|]. destruct (NodeSpineAt d o) as [[above tk]|]; [|discriminate C]. destruct (completes_variables above); [injection C as <-; reflexivity|discriminate C]. }
  subst labels. unfold variableCompletion in I. rewrite G, E in I. apply in_map_iff in I as (v & <- & I). apply filter_In in I as [I _].
  destruct (W v I) as (Wr & _). destruct (Wr Ne) as (m & Bm & _ & Vm). exists m. split; [exact Bm|exact Vm].
Qed.
(** In the innermost function around the cursor (or, if there is none, in the
    file): what is offered is written there; and its parameters, if its header ends before the
    cursor, and the variables in its own code before the cursor are offered, when
    they contain the word, unless one of that name is under the cursor. *)
Theorem C92_function_partial : forall text d s pos, analyse d = Done tt s -> d_text d = SetText text -> no_lone_cr text ->
  tokens_apart d -> in_variable d pos -> no_class_name s pos ->
  exists labels o l w f, completion d s pos = Some (Variables labels) /\
    OffsetAtPosition (d_text d) pos = Some (Z.of_nat o) /\ line_before text o l /\ last_word l w /\
    encloses d pos f /\ (forall g, own_code d f g -> function_node g -> ~ inside pos (NodeRange d g)) /\
    (forall name, In name labels -> name <> [] -> exists m, below m (node_of d f) /\ variable_at d m name) /\
    (forall m from name, variable_of d f m from -> before from pos -> GetNodeText d m = Some name -> name <> [] -> name <> B "$" -> substring w name ->
      In name labels \/ exists v, below v (node_of d f) /\ variable_at d v name /\ under_cursor s pos (NodeRange d v)).
Proof.
  intros text d s pos A T NC Ap Iv NCl. destruct (C92_offered_partial text d s pos A T NC Ap Iv NCl) as (labels & o & l & w & i & C & Eo & Hl & Hw & In_ & _ & Lb).
  destruct (innermost_function d s pos i A In_) as (f & Ef & Nf & Wr & Al). exists labels, o, l, w, f. split; [exact C|]. split; [exact Eo|]. split; [exact Hl|]. split; [exact Hw|].
  split; [exact Ef|]. split; [exact Nf|].
  assert (Rin : forall occ, In occ (recorded_in (st_vars s) i) <-> In (i, occ) (scoped 1 [0%nat] (st_vars s))).
  { intros occ. unfold recorded_in. rewrite in_map_iff. split.
    - intros ((j, o') & E & I). cbn [snd] in E. subst o'. apply filter_In in I as (I & X). apply Nat.eqb_eq in X. cbn [fst] in X. subst j. exact I.
    - intros I. exists (i, occ). split; [reflexivity|]. apply filter_In. split; [exact I|]. apply Nat.eqb_refl. }
  assert (At : forall name occ, latest (recorded_in (st_vars s) i) name (fun start => before start pos) occ -> name <> [] ->
    exists m, below m (node_of d f) /\ v_range (oc_var occ) = NodeRange d m /\ variable_at d m name).
  { intros name occ (a & b & Eq & Nm & _) Ne. assert (I : In occ (recorded_in (st_vars s) i)) by (rewrite Eq; apply in_elt). apply Rin in I.
    destruct (Wr occ I) as [E|(m & Bm & Vm & R & Tx)]; [unfold oc_name in Nm; congruence|]. exists m. split; [exact Bm|]. split; [exact R|]. split; [exact Vm|]. rewrite <- Nm. exact Tx. }
  split.
  - intros name I Ne. apply Lb in I as (_ & _ & occ & La & _). destruct (At name occ La Ne) as (m & Bm & _ & Vm). exists m. split; [exact Bm|exact Vm].
  - intros m from name V Bf Tx Ne Nd Sw. destruct (Al m name from V Tx) as (dc & I). apply Rin in I.
    pose (ok := fun s => negb (0 <=? ComparePos s pos)%Z).
    assert (OK : forall s, ok s = true <-> before s pos).
    { intros p. unfold ok. rewrite negb_true_iff. destruct (0 <=? ComparePos p pos)%Z eqn:E.
      - apply VariableProofs.compare_ge in E. split; [discriminate|]. intros X. destruct (proj1 (VariableProofs.le_lt _ _) E X).
      - split; [|reflexivity]. intros _. destruct (VariableProofs.before_dec p pos) as [X|X]; [exact X|]. apply VariableProofs.compare_ge in X. congruence. }
    pose proof (VariableProofs.look_latest ok (recorded_in (st_vars s) i) name) as L.
    destruct (VariableProofs.look _ name _) as [((v, st), dc')|].
    + assert (La : latest (recorded_in (st_vars s) i) name (fun start => before start pos) (Occ v st dc')).
      { destruct L as (a & b & Eq & Nm & K & L1 & L2). exists a, b. split; [exact Eq|]. split; [exact Nm|]. split; [apply OK; exact K|].
        split; intros o' Io No Bo; [apply L1|apply L2]; auto; apply OK; exact Bo. }
      destruct (At name _ La Ne) as (m' & Bm & R & Vm). cbn [oc_var] in R.
      assert (D : under_cursor s pos (NodeRange d m') \/ ~ under_cursor s pos (NodeRange d m')).
      { unfold under_cursor. destruct (HasTypesAtPos (st_out s) pos) as [a|]; [|right; intros (a & E & _); discriminate E].
        destruct (range_eqb (a_range a) (NodeRange d m')) eqn:Er; [left; exists a; split; [reflexivity|apply range_eqb_eq; exact Er]|].
        right. intros (b & E & Eb). injection E as <-. apply range_eqb_eq in Eb. congruence. }
      destruct D as [D|D]; [right; exists m'; auto|]. left. apply Lb. split; [exact Nd|]. split; [exact Sw|]. eexists. split; [exact La|]. cbn [oc_var]. rewrite R. exact D.
    + specialize (L _ I eq_refl). cbn [oc_start] in L. apply OK in Bf. congruence.
Qed.
End Claims.
Print Assumptions C92_function_partial.
Print Assumptions C92_static_property.
Print Assumptions C92_offered_partial.
Print Assumptions C92_written_partial.

(** <?php $total; function f($item, $items) { $it; } *)
Definition completed : src := php [statement (var "$total"); sp;
  P PhFunctionDeclaration [P PhFunctionDeclarationHeader [T TkFunction "function"; sp; T TkName "f"; word "("; 
      P PhParameterDeclarationList [P PhParameterDeclaration [T TkVariableName "$item"]; word ","; sp; P PhParameterDeclaration [T TkVariableName "$items"]]; word ")"]; sp;
    P PhFunctionDeclarationBody [P PhCompoundStatement [word "{"; sp; P PhStatementList [statement (var "$it")]; sp; word "}"]]]].
Ltac cursor d l l' o := 
  let outer := eval vm_compute in (way d l) in let inner := eval vm_compute in (way d l') in
  match outer with Ph ?ty ?ks => match inner with Ph _ [Tk ?t] =>
    exists ty, ks, [Tk t], t; split; [exact (Claims.Cursor.at_way_below l (d_root d))|]; split; [discriminate|]; split; [vm_compute; tauto|]; split; [left; reflexivity|];
    exists (Z.of_nat o); split; [vm_compute; reflexivity|cbn; lia] end end.
Lemma apart : forall d, (fix go (l : list token) : bool := match l with [] => true | a :: l => forallb (fun b => t_end a <=? t_offset b) l && go l end) (CursorSpec.written (d_root d)) = true -> tokens_apart d.
Proof.
  intros d. unfold tokens_apart. induction (CursorSpec.written (d_root d)) as [|a l IH]; [constructor|]. intros H. apply andb_true_iff in H as [H1 H2]. constructor; [auto|].
  apply Forall_forall. intros b I. rewrite forallb_forall in H1. apply Nat.leb_le. exact (H1 b I).
Qed.
Example C92_hypotheses_met : exists s, @analyse ascii_text ascii_trim_space (file completed) = Done tt s /\
  source completed = B "<?php $total; function f($item, $items) { $it; }" /\
  d_text (file completed) = SetText (source completed) /\ no_lone_cr (source completed) /\ tokens_apart (file completed) /\
  in_variable (file completed) (col 45) /\ no_class_name s (col 45) /\
  completion (file completed) s (col 45) = Some (Variables [B "$item"; B "$items"]).
Proof.
  analysed (file completed). split; [vm_compute; reflexivity|]. split; [reflexivity|]. split; [apply Claims.Text.no_lone_check; vm_compute; reflexivity|].
  split; [apply apart; vm_compute; reflexivity|]. split; [|split; [intros a H; vm_compute in H; injection H as <-; repeat split; discriminate|vm_compute; reflexivity]].
  cursor (file completed) [4; 2; 0; 2; 0] [4; 2; 0; 2; 0; 0] 45.
Qed.

Example C92_function_hypotheses_met : let d := file completed in
  encloses d (col 45) (Some (way d [4])) /\ variable_of (TX := ascii_text) d (Some (way d [4])) (way d [4; 0; 4; 0; 0]) (col 39) /\ before (col 39) (col 45) /\
  variable_at d (way d [4; 0; 4; 0; 0]) (B "$item") /\ substring (B "it") (B "$item").
Proof.
  intros d. split; [split; [exact Logic.I|split; [apply Claims.Cursor.at_way_below|unfold inside, before; vm_compute; intuition discriminate]]|].
  split; [|split; [right; cbn; lia|split; [split; vm_compute; reflexivity|exists (B "$"), (B "em"); reflexivity]]]. left.
  exists PhFunctionDeclarationHeader, (node_kids (way d [4; 0])), (node_kids (way d [4; 0; 4])), [], (Claims.Cursor.the_token (way d [4; 0; 4; 0; 0])), [].
  split; [reflexivity|]. split; [vm_compute; tauto|]. split; [vm_compute; tauto|]. split; [vm_compute; tauto|]. split; [reflexivity|]. split; [intros u []|]. split; [reflexivity|vm_compute; reflexivity].
Qed.

(** <?php A::$x; *)
Definition static_property : src := php [statement (P PhScopedPropertyAccessExpression
  [P PhQualifiedName [P PhNamespaceName [T TkName "A"]]; word "::"; P PhScopedMemberName [P PhSimpleVariable [T TkVariableName "$x"]]])].
Example C92_static_property_hypotheses_met : exists s, @analyse ascii_text ascii_trim_space (file static_property) = Done tt s /\
  source static_property = B "<?php A::$x;" /\ no_lone_cr (source static_property) /\ tokens_apart (file static_property) /\
  in_static_property (file static_property) (col 11) /\ completion (file static_property) s (col 11) = Some Others.
Proof.
  analysed (file static_property). split; [vm_compute; reflexivity|]. split; [apply Claims.Text.no_lone_check; vm_compute; reflexivity|].
  split; [apply apart; vm_compute; reflexivity|]. split; [|vm_compute; reflexivity]. pose (d := file static_property).
  exists (node_kids (way d [2; 0; 2])), (node_kids (way d [2; 0; 2; 0])), (Claims.Cursor.the_token (way d [2; 0; 2; 0; 0])).
  split; [exact (Claims.Cursor.at_way_below [2; 0; 2] (d_root d))|]. split; [vm_compute; tauto|]. split; [vm_compute; tauto|].
  exists (Z.of_nat 11); split; [vm_compute; reflexivity|cbn; lia].
Qed.

(** *** Where the full statement is false *)
(** Full statement: the variables that occur before the cursor in the innermost
    function around it, and no others, are offered when they contain what is typed.
    The variable that a catch clause declares is not offered in the clause. *)
Theorem C92_catch_refuted : exists d s m, @analyse ascii_text ascii_trim_space d = Done tt s /\
  text_of d = B "<?php try { } catch (E $e) { $e; }" /\ (forall f, below f (d_root d) -> ~ function_node f) /\
  below m (d_root d) /\ variable_at d m (B "$e") /\ NodeRange d m = cols 23 25 /\ in_variable d (col 31) /\
  completion d s (col 31) = Some (Variables []).
Proof.
  exists (file caught). analysed (file caught) (way (file caught) [2; 4; 0; 5]).
  split; [vm_compute; reflexivity|]. split; [apply no_function; vm_compute; reflexivity|]. split; [apply Claims.Cursor.at_way_below|]. split; [split; vm_compute; reflexivity|]. split; [vm_compute; reflexivity|].
  split; [|vm_compute; reflexivity]. cursor (file caught) [2; 4; 0; 8; 2; 0] [2; 4; 0; 8; 2; 0; 0] 31.
Qed.
Print Assumptions C92_catch_refuted.
(** Neither is one that is declared as static. *)
Definition counted : src := php [P (PhOther 0) [word "static"; sp; P (PhOther 1) [P (PhOther 2) [T TkVariableName "$n"]]; word ";"]; sp; statement (var "$n")].
Theorem C92_static_refuted : exists d s m, @analyse ascii_text ascii_trim_space d = Done tt s /\
  text_of d = B "<?php static $n; $n;" /\ (forall f, below f (d_root d) -> ~ function_node f) /\
  below m (d_root d) /\ variable_at d m (B "$n") /\ NodeRange d m = cols 13 15 /\ in_variable d (col 19) /\
  completion d s (col 19) = Some (Variables []).
Proof.
  exists (file counted). analysed (file counted) (way (file counted) [2; 2; 0; 0]).
  split; [vm_compute; reflexivity|]. split; [apply no_function; vm_compute; reflexivity|]. split; [apply Claims.Cursor.at_way_below|]. split; [split; vm_compute; reflexivity|]. split; [vm_compute; reflexivity|].
  split; [|vm_compute; reflexivity]. cursor (file counted) [4] [4; 0] 19.
Qed.
Print Assumptions C92_static_refuted.
(** Where a closure takes a variable by reference, "&$x" is offered, which is no variable. *)
Theorem C92_reference_refuted : exists d s, @analyse ascii_text ascii_trim_space d = Done tt s /\
  text_of d = B "<?php $x; function () use (&$x) { $x; };" /\ in_variable d (col 36) /\
  completion d s (col 36) = Some (Variables [B "&$x"]).
Proof.
  exists (file (captured [word "&"])). analysed (file (captured [word "&"])). split; [vm_compute; reflexivity|]. split; [|vm_compute; reflexivity].
  cursor (file (captured [word "&"])) [4; 0; 2; 0; 2; 0] [4; 0; 2; 0; 2; 0; 0] 36.
Qed.
Print Assumptions C92_reference_refuted.
(** Letters beyond U+00FF are no part of a word: behind them every variable is offered. *)
Definition cyrillic : src := php [statement (var "$abc"); sp; statement (var "$ж")].
Theorem C92_letters_refuted : exists d s, @analyse ascii_text ascii_trim_space d = Done tt s /\
  text_of d = B "<?php $abc; $ж;" /\ in_variable d (col 14) /\
  completion d s (col 14) = Some (Variables [B "$abc"]) /\ ~ substring (B "ж") (B "$abc").
Proof.
  exists (file cyrillic). analysed (file cyrillic). split; [vm_compute; reflexivity|]. split; [|split; [vm_compute; reflexivity|]].
  - cursor (file cyrillic) [4] [4; 0] 15.
  - intros H. apply Store.SearchProofs.contains_iff in H. vm_compute in H. discriminate H.
Qed.
Print Assumptions C92_letters_refuted.
