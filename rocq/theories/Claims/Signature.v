(** Claims about the help shown while the arguments of a call are written. *)
From Coq Require Import String.
From Coq Require Import List Bool Arith Sorting.Sorted ZArith Lia.
From Coq.Strings Require Import Byte.
From Verif Require Import Base.Bytes Base.BytesProofs Base.Protocol Base.SortSearch Symbols.Symbols Text.TextModel Text.TextSpec Text.TextProofs Text.PositionModel Text.PositionSpec
  Analyse.SyntaxModel Analyse.AnalyseModel Analyse.AnalyseProofs Claims.Text Claims.Positions Ide.ArgumentModel Ide.ArgumentSpec.
Import ListNotations.
Open Scope list_scope.
Open Scope nat_scope.

(** ** C86 *)
Section Order.
Variables (text : gostr) (d : document).
Hypothesis DT : d_text d = SetText text.
Lemma pos_at_before : forall o o', o < o' -> before (pos_at d o) (pos_at d o').
Proof.
  intros o o' L. destruct (C25_order text (Z.of_nat o) (Z.of_nat o') ltac:(lia)) as (p & p' & E & E' & H). unfold pos_at. rewrite DT, E, E'. exact H.
Qed.
Lemma pos_at_le : forall o o', o <= o' -> at_or_before (pos_at d o) (pos_at d o').
Proof. intros o o' L. destruct (Nat.eq_dec o o') as [->|N]; [right; reflexivity|left; apply pos_at_before; lia]. Qed.
Lemma before_irrefl : forall p, ~ before p p.
Proof. intros p H. unfold before in H. lia. Qed.
Lemma before_trans : forall a b c, before a b -> before b c -> before a c.
Proof. unfold before. intros; lia. Qed.
Lemma pos_at_before_iff : forall o o', before (pos_at d o) (pos_at d o') <-> o < o'.
Proof.
  intros o o'. split; [|apply pos_at_before]. intros H. destruct (le_lt_dec o' o) as [L|L]; [|exact L]. exfalso.
  destruct (pos_at_le o' o L) as [H'|H']; [exact (before_irrefl _ (before_trans _ _ _ H H'))|rewrite H' in H; exact (before_irrefl _ H)].
Qed.
Lemma ahead_iff : forall p s e, at_or_before s e -> ((IsInRange p (Rng s e) <=? 0)%Z = true <-> before p e).
Proof.
  intros p s e SE. unfold IsInRange. cbn [r_start r_end]. unfold at_or_before, before in *.
  destruct (((p_line p <? p_line s)%Z || ((p_line p =? p_line s)%Z && (p_char p <? p_char s)%Z))%bool) eqn:E1.
  - split; [intros _|reflexivity]. destruct SE as [SE|<-]; lia.
  - destruct (((p_line e <? p_line p)%Z || ((p_line p =? p_line e)%Z && (p_char e <=? p_char p)%Z))%bool) eqn:E2; split; intros H; try discriminate H; try reflexivity; lia.
Qed.

(** the ranges as pairs of offsets *)
Fixpoint offsets_from (start end_ : nat) (cs : list token) : list (nat * nat) :=
  match cs with [] => [(start, end_)] | c :: cs => (start, t_offset c) :: offsets_from (t_end c) end_ cs end.
Lemma ranges_offsets : forall kids start end_, ranges_from d (pos_at d start) (pos_at d end_) kids
  = map (fun r => Rng (pos_at d (fst r)) (pos_at d (snd r))) (offsets_from start end_ (commas kids)).
Proof.
  induction kids as [|c kids IH]; intros start end_; [reflexivity|]. destruct c as [ty ks|t|e]; cbn [ranges_from commas flat_map app]; [apply IH| |apply IH].
  destruct (t_type t); cbn [app offsets_from map fst snd]; try apply IH. f_equal. apply IH.
Qed.
(** the first range that ends behind the cursor *)
Lemma active_count : forall cs start end_ o, start <= end_ ->
  StronglySorted (fun a b => t_end a <= t_offset b) cs -> (forall c, In c cs -> t_length c = 1 /\ start <= t_offset c /\ t_end c <= end_) -> o < end_ ->
  let l := offsets_from start end_ cs in
  let k := length (List.filter (fun c => t_offset c <=? o) cs) in
  Forall (fun r => fst r <= snd r) l /\ length l = S (length cs)
  /\ (forall i, i < k -> snd (nth i l (0, 0)) <= o) /\ (forall i, k <= i -> i < length l -> o < snd (nth i l (0, 0))) /\ k < length l.
Proof.
  induction cs as [|c cs IH]; intros start end_ o SE S H O; cbn [offsets_from List.filter length nth fst snd].
  - split; [constructor; [exact SE|constructor]|]. split; [reflexivity|]. split; [intros i I; lia|]. split; [|lia]. intros i _ I. assert (i = 0) by lia. subst i. exact O.
  - inversion S as [|? ? S1 S2]; subst. destruct (H c (or_introl eq_refl)) as (L1 & L2 & L3). rewrite Forall_forall in S2.
    destruct (IH (t_end c) end_ o L3 S1) as (F & LN & H1 & H2 & H3); [|exact O|].
    { intros c' C'. destruct (H c' (or_intror C')) as (A1 & A2 & A3). split; [exact A1|]. split; [exact (S2 c' C')|exact A3]. }
    unfold t_end in L3. split; [constructor; [exact L2|exact F]|]. split; [rewrite LN; reflexivity|].
    destruct (Nat.leb_spec (t_offset c) o) as [LE|GT]; cbn [length].
    + split; [|split; [|lia]].
      * intros [|i] I; cbn [nth snd]; [exact LE|]. apply H1. lia.
      * intros [|i] I J; [lia|]. cbn [nth]. apply H2; lia.
    + assert (E0 : List.filter (fun c0 => t_offset c0 <=? o) cs = []).
      { destruct (List.filter _ cs) as [|c0 l] eqn:EF; [reflexivity|]. exfalso. assert (I0 : In c0 (c0 :: l)) by (left; reflexivity). rewrite <- EF in I0. apply filter_In in I0 as (I0 & LE0).
        apply Nat.leb_le in LE0. specialize (S2 c0 I0). unfold t_end in S2. lia. }
      rewrite E0 in *. cbn [length] in *. split; [intros i I; lia|]. split; [|lia]. intros [|i] _ J; cbn [nth snd]; [exact GT|]. apply H2; lia.
Qed.
End Order.

Lemma inside_tokens : forall d ty kids p, inside p (NodeRange d (Ph ty kids)) ->
  exists f l, FirstToken (Ph ty kids) = Some f /\ LastToken (Ph ty kids) = Some l /\ NodeRange d (Ph ty kids) = Rng (pos_at d (t_offset f)) (pos_at d (t_end l)).
Proof.
  intros d ty kids p (S & E). unfold NodeRange in *. destruct (FirstToken (Ph ty kids)) as [f|], (LastToken (Ph ty kids)) as [l|]; [eauto| | |];
    exfalso; cbn in S, E; unfold at_or_before, before in S, E; cbn in S, E; destruct S as [S|<-]; cbn in *; lia.
Qed.

(** With the cursor at [o] in the list of arguments of a call, the parameter
    shown as active is that with as many commas before it as begin at or in
    front of the cursor. *)
Theorem C86_active_parameter : forall text d ty kids o,
  d_text d = SetText text -> commas_in_order ty kids -> inside (pos_at d o) (NodeRange d (Ph ty kids)) ->
  ActiveParameter (GetRanges d ty kids) (pos_at d o) = length (List.filter (fun c => t_offset c <=? o) (commas kids))
  /\ ActiveParameter (GetRanges d ty kids) (pos_at d o) < length (GetRanges d ty kids).
Proof.
  intros text d ty kids o DT (S & CO) IN. destruct (inside_tokens d ty kids _ IN) as (f & l & F & L & NR). destruct IN as (IS & IE). rewrite NR in IS, IE. cbn [r_start r_end] in IS, IE.
  apply (pos_at_before_iff text d DT) in IE.
  assert (FO : t_offset f <= o).
  { destruct (le_lt_dec (t_offset f) o) as [G|G]; [exact G|]. exfalso. apply (pos_at_before text d DT) in G.
    destruct IS as [IS|IS]; [exact (before_irrefl _ (before_trans _ _ _ IS G))|rewrite IS in G; exact (before_irrefl _ G)]. }
  unfold GetRanges. rewrite NR. cbn [r_start r_end]. rewrite (ranges_offsets d).
  destruct (active_count (commas kids) (t_offset f) (t_end l) o ltac:(lia) S) as (FA & LN & H1 & H2 & H3); [|exact IE|].
  { intros c C. destruct (CO c C) as (C1 & C2 & C3). split; [exact C1|]. split; [exact (C2 f F)|exact (C3 l L)]. }
  set (rs := offsets_from (t_offset f) (t_end l) (commas kids)) in *. set (k := length (List.filter _ (commas kids))) in *.
  assert (P : forall i, i < length rs -> (IsInRange (pos_at d o) (nth i (map (fun r => Rng (pos_at d (fst r)) (pos_at d (snd r))) rs) zero_range) <=? 0)%Z = true <-> o < snd (nth i rs (0, 0))).
  { intros i I. rewrite (nth_indep _ zero_range (Rng (pos_at d (fst (0, 0))) (pos_at d (snd (0, 0))))) by (rewrite map_length; exact I). rewrite (map_nth (fun r => Rng (pos_at d (fst r)) (pos_at d (snd r)))).
    rewrite ahead_iff; [apply (pos_at_before_iff text d DT)|]. apply (pos_at_le text d DT). rewrite Forall_forall in FA. apply FA. apply nth_In. exact I. }
  unfold ActiveParameter. rewrite map_length.
  destruct (sort_search_spec (length rs) (fun i => (IsInRange (pos_at d o) (nth i (map (fun r => Rng (pos_at d (fst r)) (pos_at d (snd r))) rs) zero_range) <=? 0)%Z)) as (B1 & B2 & B3).
  { intros a b AB BL FA'. apply P in FA'; [|lia]. apply P; [exact BL|]. destruct (le_lt_dec k a) as [KA|KA]; [apply H2; lia|]. specialize (H1 a KA). lia. }
  set (r := sort_search _ _) in *. assert (R : r = k).
  { destruct (lt_eq_lt_dec r k) as [[LT|E]|GT]; [|exact E|].
    - exfalso. assert (RL : r < length rs) by lia. specialize (B3 RL). apply P in B3; [|exact RL]. specialize (H1 r LT). lia.
    - exfalso. specialize (B2 k GT). assert (X : o < snd (nth k rs (0, 0))) by (apply H2; lia). apply P in X; [|exact H3]. rewrite X in B2. discriminate B2. }
  split; [exact R|rewrite R; exact H3].
Qed.
Print Assumptions C86_active_parameter.

(** So it is the one the cursor is in -- as many commas are behind the cursor --
    unless the cursor is directly in front of a comma. *)
Theorem C86_active_parameter_partial : forall text d ty kids o,
  d_text d = SetText text -> commas_in_order ty kids -> inside (pos_at d o) (NodeRange d (Ph ty kids)) ->
  (forall c, In c (commas kids) -> t_offset c <> o) ->
  ActiveParameter (GetRanges d ty kids) (pos_at d o) = commas_passed kids o.
Proof.
  intros text d ty kids o DT CO IN NC. destruct (C86_active_parameter text d ty kids o DT CO IN) as (E & _). rewrite E. unfold commas_passed. f_equal.
  destruct CO as (_ & CO). assert (H : forall c, In c (commas kids) -> t_length c = 1 /\ t_offset c <> o) by (intros c C; split; [exact (proj1 (CO c C))|exact (NC c C)]).
  clear - H. induction (commas kids) as [|c cs IH]; [reflexivity|]. cbn [List.filter]. destruct (H c (or_introl eq_refl)) as (L & N). unfold t_end at 1. rewrite L.
  rewrite IH by (intros c' C'; apply H; right; exact C'). destruct (Nat.leb_spec (t_offset c) o), (Nat.leb_spec (t_offset c + 1) o); try reflexivity; lia.
Qed.
Print Assumptions C86_active_parameter_partial.

(** Directly in front of a comma the next parameter is shown: in [(a|, b)]. *)
Definition two_arguments : list node :=
  [Tk (Tok TkOpenParenthesis 0 1); Ph (PhOther 0) [Tk (Tok TkName 1 1)]; Tk (Tok TkComma 2 1); Tk (Tok TkWhitespace 3 1); Ph (PhOther 0) [Tk (Tok TkName 4 1)]; Tk (Tok TkCloseParenthesis 5 1)].
Definition two_doc : document := Doc (SetText (B "(a, b)")) (Ph PhArgumentExpressionList two_arguments) [].
Lemma two_in_order : commas_in_order PhArgumentExpressionList two_arguments.
Proof.
  split; [cbn; constructor; constructor|]. intros c [<-|[]]. split; [reflexivity|]. split; intros f F; injection F as <-; vm_compute; repeat constructor.
Qed.
Theorem C86_comma_refuted : exists text d ty kids o,
  d_text d = SetText text /\ commas_in_order ty kids /\ inside (pos_at d o) (NodeRange d (Ph ty kids))
  /\ ActiveParameter (GetRanges d ty kids) (pos_at d o) = 1 /\ commas_passed kids o = 0.
Proof.
  exists (B "(a, b)"), two_doc, PhArgumentExpressionList, two_arguments, 2. split; [reflexivity|]. split; [exact two_in_order|].
  split; [split; [left|]; vm_compute; right; split; reflexivity|]. split; vm_compute; reflexivity.
Qed.
Print Assumptions C86_comma_refuted.

(** The names of parameters are shown in front of the arguments: the name of the
    i-th parameter at the argument between the commas i and i + 1. *)
Lemma is_argument_iff : forall c, is_argument c = negb (no_argument c) && match c with Tk (Tok TkComma _ _) => false | _ => true end.
Proof. intros [ty ks|[t o l]|e]; [reflexivity| |reflexivity]. destruct t; reflexivity. Qed.
Lemma places_filled : forall kids args, Forall2 filled_by (places kids) args -> List.filter is_argument kids = args.
Proof.
  assert (X : forall kids, exists p ps, places kids = p :: ps).
  { induction kids as [|c kids (p & ps & E)]; [exists [], []; reflexivity|]. cbn [places]. rewrite E. destruct c as [ty ks|[t o l]|e]; [eauto| |eauto]. destruct t; eauto. }
  assert (F : forall p, forallb no_argument p = true -> List.filter is_argument p = []).
  { induction p as [|c p IH]; [reflexivity|]. cbn [forallb List.filter]. intros H. apply andb_true_iff in H as (H1 & H2). rewrite is_argument_iff, H1. cbn. apply IH. exact H2. }
  assert (G : forall kids, List.filter is_argument kids = concat (map (List.filter is_argument) (places kids))).
  { induction kids as [|c kids IH]; [reflexivity|]. cbn [places]. destruct (X kids) as (p & ps & E). rewrite E in *. cbn [List.filter].
    assert (N : forall c, List.filter is_argument (c :: kids) = concat (map (List.filter is_argument) ((c :: p) :: ps))).
    { intros c'. cbn [List.filter map concat]. rewrite IH. cbn [map concat]. destruct (is_argument c'); reflexivity. }
    destruct c as [ty ks|[t o l]|e]; [apply N| |apply N]. destruct t; apply N. }
  assert (C : forall kids p, In p (places kids) -> forall c, In c p -> match c with Tk (Tok TkComma _ _) => False | _ => True end).
  { induction kids as [|c kids IH]; [intros p [<-|[]] c []|]. cbn [places]. destruct (X kids) as (p0 & ps & E). rewrite E in *.
    assert (N : match c with Tk (Tok TkComma _ _) => False | _ => True end -> forall p, In p ((c :: p0) :: ps) -> forall c0, In c0 p -> match c0 with Tk (Tok TkComma _ _) => False | _ => True end).
    { intros NC p [<-|P] c0 C0; [|exact (IH p (or_intror P) c0 C0)]. destruct C0 as [<-|C0]; [exact NC|exact (IH p0 (or_introl eq_refl) c0 C0)]. }
    destruct c as [ty ks|[t o l]|e]; [apply N; exact I| |apply N; exact I]. destruct t; try (apply N; exact I). intros p [<-|P] c0 C0; [destruct C0|exact (IH p P c0 C0)]. }
  intros kids args. rewrite G. specialize (C kids). induction 1 as [|p a ps args (x & y & -> & NA & XY) H IH]; [reflexivity|]. cbn [map concat]. rewrite IH by (intros p P; apply C; right; exact P).
  rewrite filter_app. cbn [List.filter]. rewrite forallb_app in XY. apply andb_true_iff in XY as (XX & YY). rewrite (F x XX), (F y YY), is_argument_iff, NA.
  specialize (C (x ++ a :: y) (or_introl eq_refl) a ltac:(apply in_or_app; right; left; reflexivity)). destruct a as [ty ks|[t o l]|e]; [reflexivity| |reflexivity]. destruct t; try reflexivity. destruct C.
Qed.
Theorem C86_hints_partial : forall d params kids args, Forall2 filled_by (places kids) args ->
  forall i n r, nth_error (parameter_hints params (GetArgumentRanges d kids)) i = Some (n, r)
    <-> exists p a, nth_error params i = Some p /\ nth_error args i = Some a /\ n = pa_name p /\ r = NodeRange d a.
Proof.
  intros d params kids args F. unfold GetArgumentRanges. rewrite (places_filled _ _ F). clear F. revert args.
  induction params as [|p params IH]; intros args i n r; [|destruct args as [|a args]]; cbn [parameter_hints map].
  - split; [destruct i; discriminate|]. intros (p & a & P & _). destruct i; discriminate P.
  - split; [destruct i; discriminate|]. intros (p' & a & _ & A & _). destruct i; discriminate A.
  - destruct i as [|i]; cbn [nth_error]; [|apply IH]. split.
    + intros E. injection E as <- <-. exists p, a. repeat split.
    + intros (p' & a' & P & A & -> & ->). injection P as <-. injection A as <-. reflexivity.
Qed.
Print Assumptions C86_hints_partial.

(** Without an argument in front of the comma, as in [f(, b)], the name of the
    first parameter is shown at [b]. *)
Definition first_missing : list node :=
  [Tk (Tok TkOpenParenthesis 0 1); Tk (Tok TkComma 1 1); Tk (Tok TkWhitespace 2 1); Ph (PhOther 0) [Tk (Tok TkName 3 1)]; Tk (Tok TkCloseParenthesis 4 1)].
Definition first_missing_doc : document := Doc (SetText (B "(, b)")) (Ph PhArgumentExpressionList first_missing) [].
Definition two_params : list parameter := [Symbols.Param zero_loc zero_loc [] false (B "$x") [] []; Symbols.Param zero_loc zero_loc [] false (B "$y") [] []].
Theorem C86_hints_refuted : exists d params kids x y place a,
  params = [x; y] /\ pa_name x <> pa_name y /\ nth_error (places kids) 1 = Some place /\ filled_by place a
  /\ parameter_hints params (GetArgumentRanges d kids) = [(pa_name x, NodeRange d a)].
Proof.
  exists first_missing_doc, two_params, first_missing, (nth 0 two_params (Symbols.Param zero_loc zero_loc [] false [] [] [])), (nth 1 two_params (Symbols.Param zero_loc zero_loc [] false [] [] [])).
  exists [Tk (Tok TkWhitespace 2 1); Ph (PhOther 0) [Tk (Tok TkName 3 1)]; Tk (Tok TkCloseParenthesis 4 1)], (Ph (PhOther 0) [Tk (Tok TkName 3 1)]). split; [reflexivity|]. split; [discriminate|]. split; [reflexivity|]. split; [|vm_compute; reflexivity].
  exists [Tk (Tok TkWhitespace 2 1)], [Tk (Tok TkCloseParenthesis 4 1)]. repeat split.
Qed.
Print Assumptions C86_hints_refuted.

(** in [(a, b)], the cursor in front of [b] *)
Example C86_hypotheses_met :
  d_text two_doc = SetText (B "(a, b)") /\ commas_in_order PhArgumentExpressionList two_arguments
  /\ inside (pos_at two_doc 4) (NodeRange two_doc (Ph PhArgumentExpressionList two_arguments))
  /\ (forall c, In c (commas two_arguments) -> t_offset c <> 4) /\ commas_passed two_arguments 4 = 1
  /\ ActiveParameter (GetRanges two_doc PhArgumentExpressionList two_arguments) (pos_at two_doc 4) = 1
  /\ Forall2 filled_by (places two_arguments) [Ph (PhOther 0) [Tk (Tok TkName 1 1)]; Ph (PhOther 0) [Tk (Tok TkName 4 1)]]
  /\ map fst (parameter_hints two_params (GetArgumentRanges two_doc two_arguments)) = [B "$x"; B "$y"].
Proof.
  split; [reflexivity|]. split; [exact two_in_order|]. split; [split; [left|]; vm_compute; right; split; reflexivity|].
  split; [intros c [<-|[]]; discriminate|]. split; [reflexivity|]. split; [vm_compute; reflexivity|]. split; [|reflexivity].
  constructor; [exists [Tk (Tok TkOpenParenthesis 0 1)], []; repeat split|].
  constructor; [exists [Tk (Tok TkWhitespace 3 1)], [Tk (Tok TkCloseParenthesis 5 1)]; repeat split|constructor].
Qed.
