(** Proofs about the choice of the completion list. *)
From Coq Require Import String.
From Coq Require Import List Bool NArith ZArith Lia.
From Coq.Strings Require Import Byte.
From Verif Require Import Base.Bytes Base.BytesProofs Base.Protocol Base.Utf8 Base.Utf8Proofs Symbols.Symbols Symbols.KeysModel Text.TextModel Text.TextSpec Text.PositionModel
  Words.TokeniserSpec Store.FilterModel Store.StoreModel Store.StoreSpec Store.SearchModel Store.SearchSpec Types.TypesModel
  Analyse.SyntaxModel Analyse.AnalyseModel Analyse.AnalyseSpec Whole.CursorModel Whole.CursorSpec Whole.CursorProofs
  Completion.CompletionModel Completion.CompletionSpec Completion.CompletionProofs
  Completion.VarCompletionModel Completion.VarCompletionSpec Completion.VarCompletionProofs Completion.NameCompletionModel Completion.NameCompletionSpec.
Import ListNotations.
Open Scope list_scope.
Open Scope nat_scope.

(** ** The word in front of the cursor *)
Lemma runes_from : forall fuel i s front j r rest, length s <= fuel -> runes_at fuel i s = front ++ (j, r) :: rest ->
  i <= j /\ to_runes (skipn (j - i) s) = r :: map snd rest.
Proof.
  induction fuel as [|fuel IH]; intros i s front j r rest L E; [destruct front; discriminate E|].
  destruct s as [|b s]; [destruct front; discriminate E|]. cbn [runes_at] in E. pose proof (rune_width b s) as W.
  destruct (decode_rune (b :: s)) as (r0, w) eqn:D. cbn [snd] in W. destruct front as [|x front]; cbn [app] in E.
  - injection E as <- <- E2. split; [lia|]. rewrite Nat.sub_diag. cbn [skipn]. rewrite to_runes_cons, D. cbn [fst snd]. f_equal. rewrite <- E2.
    unfold to_runes, range_runes. rewrite (runes_at_fuel fuel (length (skipn w (b :: s)))) by (try rewrite skipn_length; cbn [length] in *; lia). apply runes_at_index.
  - injection E as _ E2. apply IH in E2 as (Le & E2); [|rewrite skipn_length; cbn [length] in *; lia]. split; [lia|]. rewrite skipn_skipn in E2. replace (j - (i + w) + w) with (j - i) in E2 by lia. exact E2.
Qed.
Lemma word_runes : forall l w, last_word l w -> Forall (fun r => letter r \/ digit r) (to_runes w).
Proof.
  intros l w (front & word & E & Wl & -> & _). destruct word as [|(j, r) rest].
  - cbn [begins_at]. rewrite skipn_all. constructor.
  - cbn [begins_at fst]. apply runes_from in E as (_ & E); [|lia]. rewrite Nat.sub_0_r in E. rewrite E. destruct Wl as (_ & Wl).
    apply Forall_map with (f := snd) (l := (j, r) :: rest). exact Wl.
Qed.
Lemma word_plain : forall l w, last_word l w -> ~ In NUL w /\ well_encoded w.
Proof.
  intros l w L. apply word_runes in L. rewrite Forall_forall in L. split.
  - intros I. apply in_split in I as (a & b & ->). assert (A : ascii_byte NUL) by (unfold ascii_byte; vm_compute; reflexivity).
    destruct (runes_after_ascii a NUL b A) as (rs & E). rewrite (to_runes_ascii_cons NUL b A) in E.
    specialize (L (Byte.to_N NUL)). rewrite E in L. specialize (L (in_elt _ _ _)). change (Byte.to_N NUL) with 0%N in L. unfold letter, digit in L. lia.
  - intros i r I X. assert (J : In r (to_runes w)) by (apply in_map_iff; exists (i, r); auto). apply L in J. subst r. unfold letter, digit, RuneError in J. lia.
Qed.

(** ** The phrases around the cursor *)
Lemma spine_3 : forall d ty kids ty' kids' ty'' kids'' t o, tokens_apart d -> below (Ph ty kids) (d_root d) -> In (Ph ty' kids') kids -> In (Ph ty'' kids'') kids' -> In (Tk t) kids'' ->
  (Z.of_nat (t_offset t) < o <= Z.of_nat (t_end t))%Z -> exists above, NodeSpineAt d o = Some (Ph ty'' kids'' :: Ph ty' kids' :: Ph ty kids :: above, t).
Proof.
  intros d ty kids ty' kids' ty'' kids'' t o Ap Be I I' I'' Ho. destruct (below_path _ _ Be []) as (a & sp & b & Pa).
  destruct (in_split _ _ I) as (l & r & ->). destruct (in_split _ _ I') as (l' & r' & ->). destruct (in_split _ _ I'') as (l'' & r'' & ->).
  pose proof (path_down _ _ _ _ _ _ Pa ty l _ r eq_refl) as Pd. pose proof (path_down _ _ _ _ _ _ Pd ty' l' _ r' eq_refl) as Pe. pose proof (path_down _ _ _ _ _ _ Pe ty'' l'' (Tk t) r'' eq_refl) as Pf.
  exists sp. exact (spine_found d _ t _ _ _ o Ap Pf eq_refl Ho).
Qed.
Lemma spine_4 : forall d ty0 kids0 ty kids ty' kids' ty'' kids'' t o, tokens_apart d -> below (Ph ty0 kids0) (d_root d) -> In (Ph ty kids) kids0 -> In (Ph ty' kids') kids -> In (Ph ty'' kids'') kids' -> In (Tk t) kids'' ->
  (Z.of_nat (t_offset t) < o <= Z.of_nat (t_end t))%Z -> exists above, NodeSpineAt d o = Some (Ph ty'' kids'' :: Ph ty' kids' :: Ph ty kids :: Ph ty0 kids0 :: above, t).
Proof.
  intros d ty0 kids0 ty kids ty' kids' ty'' kids'' t o Ap Be I0 I I' I'' Ho. destruct (below_path _ _ Be []) as (a & sp & b & Pa).
  destruct (in_split _ _ I0) as (l0 & r0 & ->). destruct (in_split _ _ I) as (l & r & ->). destruct (in_split _ _ I') as (l' & r' & ->). destruct (in_split _ _ I'') as (l'' & r'' & ->).
  pose proof (path_down _ _ _ _ _ _ Pa ty0 l0 _ r0 eq_refl) as Pc. pose proof (path_down _ _ _ _ _ _ Pc ty l _ r eq_refl) as Pd. pose proof (path_down _ _ _ _ _ _ Pd ty' l' _ r' eq_refl) as Pe.
  pose proof (path_down _ _ _ _ _ _ Pe ty'' l'' (Tk t) r'' eq_refl) as Pf. exists sp. exact (spine_found d _ t _ _ _ o Ap Pf eq_refl Ho).
Qed.

(** ** The choice *)
Section Choice.
Context {TX : Text} {XF : XorFilter}.
Lemma place_chosen : forall st d q c pos o word, tokens_apart d -> stands_at d q c -> in_name d q pos -> OffsetAtPosition (d_text d) pos = Some o ->
  by_place st (match NodeSpineAt d o with Some (above, _) => above | None => [] end) word = option_map NameList (complete c st word).
Proof.
  intros st d q c pos o word Ap St (ty & kids & ks & t & -> & I1 & I2 & (z & Oz & Rz)) Eo. rewrite Eo in Oz. injection Oz as <-.
  destruct St as [k0 Be I|k0 l Be Il I|k0 l Be Il I].
  - destruct (spine_3 d _ _ _ _ _ _ t o Ap Be I I1 I2 Rz) as (above & ->). reflexivity.
  - destruct (spine_4 d _ _ _ _ _ _ _ _ t o Ap Be Il I I1 I2 Rz) as (above & ->). reflexivity.
  - destruct (spine_4 d _ _ _ _ _ _ _ _ t o Ap Be Il I I1 I2 Rz) as (above & ->). reflexivity.
Qed.
Lemma place_total : forall st above word, (forall c, exists cl, complete c st word = Some cl) -> exists a, by_place st above word = Some a.
Proof.
  intros st above word T. 
  assert (C : forall c, exists a, names (complete c st word) = Some a) by (intros c; destruct (T c) as (cl & ->); eexists; reflexivity).
  unfold by_place. set (up := match above with Ph PhScopedMemberName _ :: r => r | _ => above end). clearbody up.
  destruct up as [|[ty kids|t|e] up]; try (eexists; reflexivity). destruct ty; try (eexists; reflexivity).
  all: try (destruct up as [|[ty' kids'|t'|e'] up]; try (eexists; reflexivity); destruct ty'; eexists; reflexivity).
  destruct up as [|n [|[ty' kids'|t'|e'] up]]; try (eexists; reflexivity). destruct ty'; try (eexists; reflexivity).
  all: try first [exact (C InExpression)|exact (C InNew)|exact (C InImplements)].
  destruct up as [|[ty'' kids''|t''|e''] up]; try (eexists; reflexivity). destruct ty''; try (eexists; reflexivity); first [exact (C InImplements)|exact (C InTraitUse)].
Qed.
(** variables are completed where [completion] says so *)
Lemma same_choice : forall st d s pos, 
  (completionAt st d s pos = Some VariableList -> exists labels, VarCompletionModel.completion d s pos = Some (Variables labels)) /\
  (forall labels, VarCompletionModel.completion d s pos = Some (Variables labels) -> completionAt st d s pos = Some VariableList).
Proof.
  intros st d s pos. unfold completionAt, VarCompletionModel.completion. destruct (WordAtPos _ _) as [w|]; [|split; [|intros labels]; discriminate]. destruct (OffsetAtPosition _ _) as [o|]; [|split; [|intros labels]; discriminate].
  assert (N : forall l, names l <> Some VariableList) by (intros [l|]; discriminate).
  assert (P : forall above, by_place st above w = Some VariableList <-> completes_variables above = true).
  { intros above. unfold by_place, completes_variables. set (up := match above with Ph PhScopedMemberName _ :: r => r | _ => above end). clearbody up.
    assert (F : forall x, x <> Some VariableList -> (x = Some VariableList <-> false = true)) by (intros x X; split; [intros Y; elim X; exact Y|discriminate]).
    destruct up as [|[ty kids|t|e] up]; try (apply F; discriminate). destruct ty; try (apply F; discriminate).
    all: try (destruct up as [|[ty' kids'|t'|e'] up]; [split; reflexivity| |split; reflexivity|split; reflexivity]; destruct ty'; try (split; reflexivity); apply F; discriminate).
    apply F. destruct up as [|n [|[ty' kids'|t'|e'] up]]; try discriminate. destruct ty'; try discriminate; try apply N.
    destruct up as [|[ty'' kids''|t''|e''] up]; try discriminate. destruct ty''; try discriminate; apply N. }
  assert (Q : forall above, by_place st above w = Some VariableList -> completes_class (HasTypesAtPos (st_out s) pos) = false -> by_symbol st (HasTypesAtPos (st_out s) pos) VariableList = Some VariableList).
  { intros above _ C. unfold by_symbol, completes_class in *. destruct (HasTypesAtPos _ _) as [x|]; [|reflexivity]. destruct (a_kind x); try reflexivity; discriminate C. }
  split.
  - intros H. destruct (by_place st _ w) as [a|] eqn:Ep; [|discriminate H].
    assert (C : completes_class (HasTypesAtPos (st_out s) pos) = false /\ a = VariableList).
    { unfold by_symbol, completes_class in *. destruct (HasTypesAtPos _ _) as [x|]; [|injection H as ->; auto]. destruct (a_kind x); try (injection H as ->; auto); elim (N _ H). }
    destruct C as (-> & ->). destruct (NodeSpineAt d o) as [(above, t)|]; [|discriminate Ep]. apply P in Ep. rewrite Ep. eauto.
  - intros labels H. destruct (completes_class _) eqn:C; [discriminate H|]. destruct (NodeSpineAt d o) as [(above, t)|]; [|discriminate H].
    destruct (completes_variables above) eqn:V; [|discriminate H]. apply P in V. rewrite V. exact (Q above V eq_refl).
Qed.
End Choice.
