(** Claims about positions and ranges. *)
From Coq Require Import String.
From Coq Require Import List Bool ZArith Lia.
From Coq.Strings Require Import Byte.
From Verif Require Import Base.Bytes Base.BytesProofs Base.Protocol Base.Decimal Base.DecimalProofs Text.PositionModel Text.PositionSpec.
Import ListNotations.
Open Scope list_scope.
Open Scope Z_scope.

Ltac cases := repeat match goal with
  | |- context [?a <? ?b] => destruct (Z.ltb_spec a b)
  | |- context [?a <=? ?b] => destruct (Z.leb_spec a b)
  | |- context [?a =? ?b] => destruct (Z.eqb_spec a b)
  end; cbn [orb andb].

(** ** C28 position and range order *)
(** The comparison is the order of the text. *)
Theorem C28_compare_positions : forall a b,
  (ComparePos a b = -1 <-> before a b) /\ (ComparePos a b = 0 <-> a = b) /\ (ComparePos a b = 1 <-> before b a).
Proof.
  intros [al ac] [bl bc]. unfold ComparePos, before; cbn [p_line p_char]. cases;
    repeat split; intros H'; try lia; try discriminate; try (injection H' as <- <-; lia); f_equal; lia.
Qed.
Print Assumptions C28_compare_positions.

(** It is a total order. *)
Theorem C28_total_order : forall a b c,
  (before a b \/ a = b \/ before b a) /\ ~ before a a /\ (before a b -> before b c -> before a c).
Proof.
  intros [al ac] [bl bc] [cl cc]. unfold before; cbn [p_line p_char]. repeat split; [|lia|lia].
  destruct (Z.lt_trichotomy al bl) as [?|[->|?]]; [auto| |right; right; auto].
  destruct (Z.lt_trichotomy ac bc) as [?|[->|?]]; [left; auto|right; left; reflexivity|right; right; auto].
Qed.
Print Assumptions C28_total_order.

(** A position is in a range exactly when it is at or after its start and
    strictly before its end; the sign tells on which side it is otherwise. *)
Theorem C28_in_range : forall p r,
  (IsInRange p r = 0 <-> inside p r)
  /\ (IsInRange p r < 0 <-> before p (r_start r))
  /\ (IsInRange p r > 0 <-> at_or_before (r_start r) p /\ at_or_before (r_end r) p).
Proof.
  intros [pl pc] [[sl sc] [el ec]]. unfold IsInRange, inside, at_or_before, before; cbn [p_line p_char r_start r_end].
  assert (EQ : forall a b c d, Pos a b = Pos c d <-> a = c /\ b = d) by (intros; split; [intros H; injection H; auto|intros [-> ->]; reflexivity]).
  rewrite !EQ. cases; repeat split; intros; try lia; try discriminate.
Qed.
Print Assumptions C28_in_range.

(** Ranges compare as before / after exactly when they do not touch (for
    ranges that start before they end); an adjacent range on the left
    overlaps. *)
Theorem C28_compare_ranges : forall a b,
  before (r_start b) (r_end b) ->
  (CompareRange a b = -1 <-> before (r_end a) (r_start b))
  /\ (CompareRange a b = 1 <-> ~ before (r_end a) (r_start b) /\ at_or_before (r_end b) (r_start a))
  /\ (CompareRange a b = 0 <-> at_or_before (r_start b) (r_end a) /\ before (r_start a) (r_end b)).
Proof.
  intros a b H. destruct (C28_in_range (r_end a) b) as (_ & E & _). destruct (C28_in_range (r_start a) b) as (_ & _ & S).
  unfold CompareRange.
  assert (EQ : forall x y : position, x = y <-> p_line x = p_line y /\ p_char x = p_char y)
    by (intros [x1 x2] [y1 y2]; cbn [p_line p_char]; split; [intros Q; injection Q; auto|intros [-> ->]; reflexivity]).
  unfold at_or_before in *. rewrite !EQ in *. unfold before in *.
  destruct (Z.ltb_spec (IsInRange (r_end a) b) 0), (Z.ltb_spec 0 (IsInRange (r_start a) b)); lia.
Qed.
Print Assumptions C28_compare_ranges.
Example C28_hypotheses_met : before (Pos 3 7) (Pos 4 0)
  /\ IsInRange (Pos 3 9) (Rng (Pos 3 7) (Pos 4 0)) = 0 /\ IsInRange (Pos 4 0) (Rng (Pos 3 7) (Pos 4 0)) = 1.
Proof. repeat split; unfold before; cbn; lia. Qed.

(** ** C29 printed positions parse back *)
Lemma itoa_free : forall z c, is_digit_byte c = false -> c <> MINUS -> ~ In c (Itoa z).
Proof. intros z c D M I. destruct (Itoa_bytes z c I) as [E|E]; congruence. Qed.

Theorem C29_position : forall p, int64 (p_line p) -> int64 (p_char p) -> PosFromString (PosString p) = Some p.
Proof.
  intros [l c] L C. unfold PosFromString, PosString; cbn [p_line p_char app] in *.
  rewrite split_byte_app by (apply itoa_free; [reflexivity|discriminate]).
  rewrite split_byte_none by (apply itoa_free; [reflexivity|discriminate]).
  rewrite !Atoi_Itoa by assumption. reflexivity.
Qed.
Print Assumptions C29_position.

Lemma pos_no_minus : forall p, 0 <= p_line p -> 0 <= p_char p -> ~ In MINUS (PosString p).
Proof.
  intros p L C I. unfold PosString in I. apply in_app_or in I as [I|[I|I]]; [|discriminate|].
  - apply Itoa_nonneg_digits in I; [discriminate|exact L].
  - apply Itoa_nonneg_digits in I; [discriminate|exact C].
Qed.

(** Ranges with non-negative numbers read back; the separator is the minus
    sign, so a range with a negative number does not (below). *)
Theorem C29_range_partial : forall r,
  0 <= p_line (r_start r) < 2 ^ 63 -> 0 <= p_char (r_start r) < 2 ^ 63 ->
  0 <= p_line (r_end r) < 2 ^ 63 -> 0 <= p_char (r_end r) < 2 ^ 63 ->
  RangeFromString (RangeString r) = Some r.
Proof.
  intros [s e] L1 C1 L2 C2. cbn [r_start r_end] in *. unfold RangeFromString, RangeString; cbn [r_start r_end app].
  rewrite split_byte_app by (apply pos_no_minus; lia). rewrite split_byte_none by (apply pos_no_minus; lia).
  rewrite !C29_position by (unfold int64; lia). reflexivity.
Qed.
Print Assumptions C29_range_partial.
Example C29_hypotheses_met : let r := Rng (Pos 10 0) (Pos 12 345) in
  RangeString r = B "10:0-12:345" /\ RangeFromString (RangeString r) = Some r /\ int64 (-5) /\ PosFromString (B "-5:3") = Some (Pos (-5) 3).
Proof. cbv zeta. split; [reflexivity|]. split; [reflexivity|]. split; [unfold int64; lia|reflexivity]. Qed.

Theorem C29_negative_range_refuted : exists r, int64 (p_line (r_start r)) /\ int64 (p_char (r_start r))
  /\ int64 (p_line (r_end r)) /\ int64 (p_char (r_end r)) /\ RangeFromString (RangeString r) = None.
Proof. exists (Rng (Pos 1 0) (Pos (-1) 0)). cbn [r_start r_end p_line p_char]. unfold int64. repeat split; lia. Qed.
Print Assumptions C29_negative_range_refuted.
