(** The word in front of the cursor; the variables that are offered. *)
From Coq Require Import String.
From Coq Require Import List Bool NArith ZArith Lia Sorting.Sorted.
From Coq.Strings Require Import Byte.
From Verif Require Import Base.Bytes Base.BytesProofs Base.Protocol Base.Utf8 Base.SortSearch Symbols.Symbols Symbols.KeysModel Types.TypesModel
  Text.TextModel Text.TextSpec Text.TextProofs Text.PositionModel Text.PositionSpec
  Rpc.StreamModel Words.TokeniserModel Words.TokeniserSpec Ide.VariableModel Ide.VariableSpec Ide.VariableProofs Store.FilterModel Store.SearchModel Store.SearchSpec Store.SearchProofs
  Completion.VarCompletionModel Completion.VarCompletionSpec.
Import ListNotations.
Open Scope list_scope.
Open Scope nat_scope.
Local Notation LF := TextModel.LF.

(** ** Words *)
Lemma first_letter : forall r, first_of_word r = true <-> letter r.
Proof.
  intros r. unfold first_of_word, letter. rewrite !orb_true_iff, !andb_true_iff, !N.leb_le, !N.eqb_eq. lia.
Qed.
Lemma rest_letter : forall r, rest_of_word r = true <-> letter r \/ digit r.
Proof.
  intros r. unfold rest_of_word, digit. rewrite orb_true_iff, first_letter, andb_true_iff, !N.leb_le. tauto.
Qed.
Lemma snoc_suffix : forall A (l : list A) c front word, l ++ [c] = front ++ word -> word = [] \/ exists w, word = w ++ [c] /\ l = front ++ w.
Proof.
  intros A l c front word E. destruct word as [|x word]; [left; reflexivity|right]. destruct (exists_last (l := x :: word)) as (w & y & W); [discriminate|].
  rewrite W in *. rewrite app_assoc in E. apply app_inj_tail in E as [E ->]. exists w. split; [reflexivity|exact E].
Qed.
Lemma wordlike_front : forall w c, wordlike (w ++ [c]) -> wordlike w /\ (letter (snd c) \/ digit (snd c)) /\ (w = [] -> letter (snd c)).
Proof.
  intros [|x w] c H; cbn in H.
  - destruct H as [L _]. split; [exact I|]. split; [left; exact L|intros _; exact L].
  - destruct H as [L F]. inversion F as [|? ? A R]; subst. apply Forall_app in R as [R C]. inversion C; subst. split; [split; [exact L|constructor; assumption]|].
    split; [assumption|discriminate].
Qed.
Lemma word_found : forall R, exists front word, R = front ++ word /\ wordlike word /\
  (forall front' word', R = front' ++ word' -> wordlike word' -> length word' <= length word) /\
  fold_left word_step R None = match word with [] => None | c :: _ => Some (fst c) end.
Proof.
  intros R. induction R as [|c R (front & word & -> & W & M & E)] using rev_ind.
  - exists [], []. split; [reflexivity|]. split; [exact I|]. split; [|reflexivity]. intros f w H _. symmetry in H. apply app_eq_nil in H as [_ ->]. constructor.
  - rewrite fold_left_app, E. cbn [fold_left]. unfold word_step. destruct word as [|x word].
    + destruct (first_of_word (snd c)) eqn:F.
      * exists (front ++ []), [c]. split; [reflexivity|]. apply first_letter in F. split; [split; [exact F|constructor; [left; exact F|constructor]]|]. split; [|reflexivity].
        intros f w H Ww. apply snoc_suffix in H as [-> |(w0 & -> & H)]; [cbn; lia|]. apply wordlike_front in Ww as (W0 & _ & _). specialize (M f w0 H W0). rewrite app_length. cbn in *. lia.
      * exists ((front ++ []) ++ [c]), []. split; [rewrite !app_nil_r; reflexivity|]. split; [exact I|]. split; [|reflexivity].
        intros f w H Ww. apply snoc_suffix in H as [-> |(w0 & -> & H)]; [cbn; lia|]. apply wordlike_front in Ww as (W0 & _ & L). specialize (M f w0 H W0). cbn [length] in M.
        destruct w0; [|cbn in M; lia]. specialize (L eq_refl). apply first_letter in L. congruence.
    + destruct (rest_of_word (snd c)) eqn:F.
      * exists front, ((x :: word) ++ [c]). split; [rewrite app_assoc; reflexivity|]. apply rest_letter in F. split; [|split; [|reflexivity]].
        { destruct W as [L Fo]. cbn. split; [exact L|]. change (x :: word ++ [c]) with ((x :: word) ++ [c]). apply Forall_app. split; [exact Fo|constructor; [exact F|constructor]]. }
        intros f w H Ww. apply snoc_suffix in H as [-> |(w0 & -> & H)]; [cbn; lia|]. apply wordlike_front in Ww as (W0 & _ & _). specialize (M f w0 H W0). rewrite !app_length. lia.
      * exists ((front ++ x :: word) ++ [c]), []. split; [rewrite !app_nil_r; reflexivity|]. split; [exact I|]. split; [|reflexivity].
        intros f w H Ww. apply snoc_suffix in H as [-> |(w0 & -> & H)]; [cbn; lia|]. apply wordlike_front in Ww as (_ & L & _). apply rest_letter in L. congruence.
Qed.
Lemma FindWord_last : forall l, last_word l (FindWord l).
Proof.
  intros l. destruct (word_found (range_runes l)) as (front & word & E & W & M & F). exists front, word. split; [exact E|]. split; [exact W|]. split; [|exact M].
  unfold FindWord. rewrite F. destruct word as [|c word]; cbn [begins_at]; [rewrite skipn_all; reflexivity|reflexivity].
Qed.

(** ** The line of the cursor *)
Lemma starts_in : forall s n x, In x (starts s n) <-> exists a b, s = a ++ LF :: b /\ x = (n + Z.of_nat (length a) + 1)%Z.
Proof.
  induction s as [|c s IH]; intros n x; cbn [starts].
  - split; [intros []|]. intros (a & b & E & _). destruct a; discriminate E.
  - assert (G : In x (starts s (n + 1)) <-> exists a b, c :: s = (c :: a) ++ LF :: b /\ x = (n + Z.of_nat (length (c :: a)) + 1)%Z).
    { rewrite IH. split; intros (a & b & E & ->); exists a, b; (split; [cbn in *; congruence|cbn [length]; lia]). }
    destruct (byte_eqb c LF) eqn:C.
    + apply byte_eqb_eq in C. subst c. transitivity ((n + 1)%Z = x \/ In x (starts s (n + 1))); [reflexivity|]. rewrite G. split.
      * intros [<-|(a & b & E & ->)]; [exists [], s; split; [reflexivity|cbn; lia]|exists (LF :: a), b; auto].
      * intros (a & b & E & ->). destruct a as [|y a]; [left; cbn; lia|right]. cbn in E. injection E as -> E. exists a, b. cbn. split; [congruence|reflexivity].
    + eapply iff_trans; [exact G|]. split.
      * intros (a & b & E & ->). exists (c :: a), b. auto.
      * intros (a & b & E & ->). destruct a as [|y a]; cbn in E; injection E as -> E; [rewrite byte_eqb_refl in C; discriminate C|]. exists a, b. cbn. split; [congruence|reflexivity].
Qed.
Lemma line_found : forall text o, no_lone_cr text -> o <= length text ->
  let lines := td_lines (SetText text) in
  let n := Nat.pred (sort_search (length lines) (fun i => (Z.of_nat o <=? nth i lines 0)%Z)) in
  let n := if (S n <? length lines) && (Z.of_nat o =? nth (S n) lines 0)%Z then S n else n in
  exists start l, nth_error lines n = Some start /\ go_slice text (Z.to_nat start) o = Some l /\ line_before text o l.
Proof.
  intros text o NC O lines n n'. destruct (table_sorted text) as (S & B & rest & HD). fold lines in S, B, HD.
  set (f := fun i => (Z.of_nat o <=? nth i lines 0)%Z) in *.
  destruct (sort_search_spec (length lines) f) as (LE & P & Q).
  { intros a b AB BL FA. unfold f in *. apply Z.leb_le in FA. apply Z.leb_le. assert (H := sorted_nth _ a b S AB BL). lia. }
  set (k := sort_search (length lines) f) in *. assert (LN : 0 < length lines) by (rewrite HD; cbn; lia).
  (* the line begins at or before the cursor, and no later line begins between *)
  assert (G : n' < length lines /\ (nth n' lines 0 <= Z.of_nat o)%Z /\ forall x, In x lines -> (nth n' lines 0 < x)%Z -> (Z.of_nat o < x)%Z).
  { assert (OUT : forall j, j < length lines -> (Z.of_nat o < nth j lines 0)%Z -> nth n' lines 0%Z = nth n' lines 0%Z -> forall i, j <= i -> i < length lines -> (Z.of_nat o < nth i lines 0)%Z).
    { intros j J H _ i JI I. pose proof (sorted_nth _ j i S JI I). lia. }
    assert (IDX : forall x, In x lines -> exists j, j < length lines /\ nth j lines 0%Z = x) by (intros x I; destruct (In_nth _ _ 0%Z I) as (j & J & E); eauto).
    unfold n'. destruct ((Datatypes.S n <? length lines) && (Z.of_nat o =? nth (Datatypes.S n) lines 0)%Z) eqn:C.
    - apply andb_true_iff in C as [C1 C2]. apply Nat.ltb_lt in C1. apply Z.eqb_eq in C2. split; [exact C1|]. split; [lia|]. intros x _ H. lia.
    - assert (NL : n < length lines) by (unfold n; lia). split; [exact NL|].
      assert (LO : (nth n lines 0 <= Z.of_nat o)%Z).
      { destruct (Nat.eq_dec k 0) as [K|K]; [unfold n; rewrite K, HD; cbn; lia|]. specialize (P n ltac:(unfold n; lia)). unfold f in P. apply Z.leb_gt in P. lia. }
      split; [exact LO|]. intros x I H. destruct (IDX x I) as (j & J & <-). assert (NJ : n < j) by (destruct (le_lt_dec j n) as [L|L]; [pose proof (sorted_nth _ j n S L NL); lia|exact L]).
      assert (C' : (nth (Datatypes.S n) lines 0 <> Z.of_nat o)%Z).
      { apply andb_false_iff in C as [C|C]; [apply Nat.ltb_ge in C; lia|apply Z.eqb_neq in C; lia]. }
      assert (SN : (Z.of_nat o < nth (Datatypes.S n) lines 0)%Z).
      { destruct (Nat.eq_dec k 0) as [K|K].
        - specialize (Q ltac:(lia)). unfold f in Q. apply Z.leb_le in Q. rewrite K in Q. pose proof (sorted_nth _ 0 (Datatypes.S n) S ltac:(lia) ltac:(lia)). lia.
        - specialize (Q ltac:(unfold n in *; lia)). unfold f in Q. apply Z.leb_le in Q. replace (Datatypes.S n) with k in * by (unfold n; lia). lia. }
      pose proof (sorted_nth _ (Datatypes.S n) j S ltac:(lia) J). lia. }
  destruct G as (NL & LO & NX). set (start := nth n' lines 0%Z) in *.
  assert (NE : nth_error lines n' = Some start) by (apply nth_error_nth'; exact NL). assert (IS : In start lines) by (apply nth_error_In in NE; exact NE).
  destruct (B start IS) as [B1 B2]. exists start, (slice text (Z.to_nat start) o). split; [exact NE|]. split.
  { unfold go_slice. destruct (Nat.leb_spec (Z.to_nat start) o); [|lia]. destruct (Nat.leb_spec o (length text)); [|lia]. reflexivity. }
  unfold lines in *. rewrite (SetText_lines text NC) in *. set (p := Z.to_nat start) in *.
  assert (PO : p <= o) by (unfold p; lia).
  assert (FS : firstn o text = firstn p text ++ slice text p o).
  { unfold slice. rewrite <- (firstn_skipn p (firstn o text)) at 1. rewrite firstn_firstn, Nat.min_l by exact PO. f_equal. rewrite skipn_firstn_comm. reflexivity. }
  exists (firstn p text). split; [exact FS|]. split.
  - intros I. apply in_split in I as (x & y & E). assert (T : text = (firstn p text ++ x) ++ LF :: y ++ skipn o text).
    { rewrite <- (firstn_skipn o text) at 1. rewrite FS, E. rewrite <- !app_assoc. reflexivity. }
    assert (LX : length (firstn p text ++ x) < o).
    { assert (length (firstn o text) = o) by (rewrite firstn_length; lia). rewrite FS, E, !app_length in H. cbn in H. rewrite app_length. lia. }
    assert (LP : p <= length (firstn p text ++ x)) by (rewrite app_length, firstn_length; lia).
    assert (X : In (0 + Z.of_nat (length (firstn p text ++ x)) + 1)%Z (starts text 0)) by (apply starts_in; exists (firstn p text ++ x), (y ++ skipn o text); split; [exact T|reflexivity]).
    specialize (NX _ (or_intror X)). lia.
  - destruct IS as [<-|IS]; [left; reflexivity|right]. apply starts_in in IS as (a & b & T & E). exists a. unfold p. rewrite E, T.
    replace (Z.to_nat (0 + Z.of_nat (length a) + 1)) with (length (a ++ [LF])) by (rewrite app_length; cbn; lia).
    replace (a ++ LF :: b) with ((a ++ [LF]) ++ b) by (rewrite <- app_assoc; reflexivity). rewrite firstn_app, Nat.sub_diag, firstn_all. cbn. rewrite app_nil_r. reflexivity.
Qed.
Lemma word_at : forall text pos o, no_lone_cr text -> OffsetAtPosition (SetText text) pos = Some (Z.of_nat o) -> o <= length text ->
  exists l w, WordAtPos (SetText text) pos = Some w /\ line_before text o l /\ last_word l w.
Proof.
  intros text pos o NC E O. unfold WordAtPos. rewrite E. destruct (line_found text o NC O) as (start & l & N & G & L). cbv zeta in *. rewrite N.
  assert (T : td_text (SetText text) = text) by (unfold SetText; destruct (calculateLineOffsets text 0); reflexivity).
  rewrite T, Nat2Z.id, G. exists l, (FindWord l). split; [reflexivity|]. split; [exact L|apply FindWord_last].
Qed.

(** ** The items *)
Lemma range_eqb_eq : forall a b, range_eqb a b = true <-> a = b.
Proof.
  intros [[a b] [c e]] [[a' b'] [c' e']]. unfold range_eqb, pos_eqb. cbn. rewrite !andb_true_iff, !Z.eqb_eq. split; [intros ((-> & ->) & -> & ->); reflexivity|].
  intros E. injection E as -> -> -> ->. repeat split.
Qed.
Lemma before_index_in : forall l i v, before_index l i = Some v -> exists c, In c l /\ cv_var c = v.
Proof.
  intros l [|i] v E; [discriminate E|]. cbn in E. destruct (nth_error l i) as [c|] eqn:N; [|discriminate E]. injection E as <-. apply nth_error_In in N. eauto.
Qed.
(** one variable for a name *)
Lemma variables_once : forall m pos, table_ok m -> NoDup (map v_name (GetVariables m pos)).
Proof.
  intros m pos [K L]. unfold GetVariables. induction m as [|[n l] m IH]; [constructor|]. cbn [flat_map map] in *. inversion K as [|? ? NI K']; subst. rewrite map_app.
  assert (IH' := IH K' ltac:(intros n0 l0 I; apply L; right; exact I)). clear IH.
  assert (X : forall (w : list variable), (forall v, In v w -> v_name v = n) -> (exists v, w = [v]) \/ w = [] -> NoDup (map v_name w ++ map v_name (flat_map (fun e => match snd e with
    | [] => []
    | l => match before_index l (sort_search (length l) (fun i =>
             match nth_error l i with Some c => (0 <=? ComparePos (cv_start c) pos)%Z | None => true end)) with
           | Some v => [v]
           | None => []
           end
    end) m))).
  { intros w N [(v & ->)| ->]; [|exact IH']. cbn [map app]. constructor; [|exact IH']. rewrite (N v (or_introl eq_refl)). intros I. apply in_map_iff in I as (u & U & I).
    apply in_flat_map in I as ((k & l') & I1 & I2). cbn [snd] in I2. destruct l' as [|c l']; [destruct I2|]. destruct (before_index (c :: l') _) as [u'|] eqn:E; [|destruct I2].
    destruct I2 as [<-|[]]. apply before_index_in in E as (c' & Ic & <-). destruct (L k (c :: l') (or_intror I1)) as (_ & _ & V). rewrite (V c' Ic) in U. subst k.
    apply NI. apply (in_map fst) in I1. exact I1. }
  apply X; cbn [snd].
  - intros v I. destruct l as [|c l]; [destruct I|]. destruct (before_index (c :: l) _) as [u|] eqn:E; [|destruct I]. destruct I as [<-|[]].
    apply before_index_in in E as (c' & Ic & <-). destruct (L n (c :: l) (or_introl eq_refl)) as (_ & _ & V). exact (V c' Ic).
  - destruct l as [|c l]; [right; reflexivity|]. destruct (before_index (c :: l) _); [left; eauto|right; reflexivity].
Qed.
Lemma filter_names_once : forall (p : variable -> bool) l, NoDup (map v_name l) -> NoDup (map v_name (List.filter p l)).
Proof.
  intros p. induction l as [|v l IH]; intros N; [constructor|]. cbn [List.filter map] in *. inversion N as [|? ? NI N']; subst. destruct (p v); [|exact (IH N')].
  cbn [map]. constructor; [|exact (IH N')]. intros I. apply NI. apply in_map_iff in I as (u & U & I). apply filter_In in I as [I _]. rewrite <- U. apply in_map. exact I.
Qed.
