From Coq Require Import List Bool NArith Arith Lia.
From Coq.Strings Require Import Byte.
From Verif Require Import Base.Bytes Base.BytesProofs Base.Utf8.
Import ListNotations.

Lemma rune_width : forall b s, 1 <= snd (decode_rune (b :: s)) <= length (b :: s).
Proof.
  intros b s. unfold decode_rune.
  destruct (N.ltb _ _); [simpl; lia|].
  destruct (in_rng 194 223 b).
  { destruct s as [|b1 s]; [simpl; lia|]. destruct (in_rng 128 191 b1); simpl; lia. }
  destruct (in_rng 224 239 b).
  { destruct s as [|b1 [|b2 s]]; try (simpl; lia). destruct (_ && _)%bool; simpl; lia. }
  destruct (in_rng 240 244 b).
  { destruct s as [|b1 [|b2 [|b3 s]]]; try (simpl; lia). destruct (_ && _)%bool; simpl; lia. }
  simpl; lia.
Qed.

Lemma runes_at_fuel : forall f1 f2 s i, length s <= f1 -> length s <= f2 -> runes_at f1 i s = runes_at f2 i s.
Proof.
  induction f1 as [|f1 IH]; intros f2 s i L1 L2.
  - destruct s; [|simpl in L1; lia]. destruct f2; reflexivity.
  - destruct s as [|b s]; [destruct f2; reflexivity|]. destruct f2 as [|f2]; [simpl in L2; lia|]. cbn [runes_at].
    pose proof (rune_width b s) as W. destruct (decode_rune (b :: s)) as [r w]. cbn [snd] in W. f_equal.
    apply IH; rewrite skipn_length; cbn [length] in *; lia.
Qed.

Lemma runes_at_index : forall f s i j, map snd (runes_at f i s) = map snd (runes_at f j s).
Proof.
  induction f as [|f IH]; intros s i j; [reflexivity|]. destruct s as [|b s]; [reflexivity|]. cbn [runes_at].
  destruct (decode_rune (b :: s)) as [r w]. cbn. f_equal. apply IH.
Qed.

Lemma to_runes_cons : forall b s, to_runes (b :: s) =
  fst (decode_rune (b :: s)) :: to_runes (skipn (snd (decode_rune (b :: s))) (b :: s)).
Proof.
  intros b s. unfold to_runes, range_runes. cbn [length runes_at]. pose proof (rune_width b s) as W.
  destruct (decode_rune (b :: s)) as [r w]. cbn [snd fst map] in *. f_equal.
  rewrite (runes_at_fuel (length s) (length (skipn w (b :: s)))) by (rewrite ?skipn_length; cbn [length] in *; lia). apply runes_at_index.
Qed.

Definition ascii_byte (b : byte) : Prop := (Byte.to_N b < 128)%N.

Lemma in_rng_high : forall lo hi b, (128 <= lo)%N -> in_rng lo hi b = true -> ~ ascii_byte b.
Proof.
  intros lo hi b L H. unfold in_rng in H. apply andb_true_iff in H as [H _]. apply N.leb_le in H. unfold ascii_byte. lia.
Qed.

Lemma decode_ascii : forall b s, ascii_byte b -> decode_rune (b :: s) = (Byte.to_N b, 1).
Proof. intros b s A. unfold decode_rune. apply N.ltb_lt in A. now rewrite A. Qed.

(** the bytes of a rune other than the first are not ASCII *)
Lemma rune_bytes_high : forall b s i, 1 <= i < snd (decode_rune (b :: s)) ->
  exists c, nth_error (b :: s) i = Some c /\ ~ ascii_byte c.
Proof.
  intros b s i. unfold decode_rune. set (n := Byte.to_N b).
  assert (LO1 : (128 <= (if N.eqb n 224 then 160 else 128))%N) by (destruct (N.eqb n 224); lia).
  assert (LO2 : (128 <= (if N.eqb n 240 then 144 else 128))%N) by (destruct (N.eqb n 240); lia).
  destruct (N.ltb n 128); [simpl; lia|].
  destruct (in_rng 194 223 b).
  { destruct s as [|b1 s]; [simpl; lia|]. destruct (in_rng 128 191 b1) eqn:E1; simpl; intros I; [|lia].
    assert (i = 1) by lia. subst. exists b1. split; [reflexivity|]. eapply in_rng_high; [|exact E1]. lia. }
  destruct (in_rng 224 239 b).
  { destruct s as [|b1 [|b2 s]]; try (simpl; lia). destruct (_ && _)%bool eqn:E; cbn [snd]; intros I; [|lia].
    apply andb_true_iff in E as [E1 E2]. assert (i = 1 \/ i = 2) as [-> | ->] by lia.
    - exists b1. split; [reflexivity|]. eapply in_rng_high; [exact LO1|exact E1].
    - exists b2. split; [reflexivity|]. eapply in_rng_high; [|exact E2]. lia. }
  destruct (in_rng 240 244 b).
  { destruct s as [|b1 [|b2 [|b3 s]]]; try (simpl; lia). destruct (_ && _)%bool eqn:E; cbn [snd]; intros I; [|lia].
    apply andb_true_iff in E as [E E3]. apply andb_true_iff in E as [E1 E2]. assert (i = 1 \/ i = 2 \/ i = 3) as [-> |[-> | ->]] by lia.
    - exists b1. split; [reflexivity|]. eapply in_rng_high; [exact LO2|exact E1].
    - exists b2. split; [reflexivity|]. eapply in_rng_high; [|exact E2]. lia.
    - exists b3. split; [reflexivity|]. eapply in_rng_high; [|exact E3]. lia. }
  simpl; lia.
Qed.

(** the encoding of the text after an ASCII character does not depend on what
    precedes it *)
Lemma runes_after_ascii : forall a b s, ascii_byte b ->
  exists rs, to_runes (a ++ b :: s) = rs ++ to_runes (b :: s).
Proof.
  intros a. remember (length a) as n eqn:EN. revert a EN. induction n as [n IH] using lt_wf_ind. intros a -> b s A.
  destruct a as [|c a]; [exists []; reflexivity|]. cbn [app]. rewrite to_runes_cons.
  pose proof (rune_width c (a ++ b :: s)) as W. pose proof (fun i => rune_bytes_high c (a ++ b :: s) i) as HB.
  set (w := snd (decode_rune (c :: a ++ b :: s))) in *.
  assert (LE : w <= length (c :: a)).
  { destruct (le_lt_dec w (length (c :: a))) as [L|L]; [exact L|]. exfalso.
    destruct (HB (length (c :: a))) as (x & Hx & NA); [cbn [length] in *; lia|].
    change (c :: a ++ b :: s) with ((c :: a) ++ b :: s) in Hx. rewrite nth_error_app2, Nat.sub_diag in Hx by lia. cbn in Hx. congruence. }
  change (c :: a ++ b :: s) with ((c :: a) ++ b :: s). rewrite skipn_app.
  replace (w - length (c :: a)) with 0 by lia. cbn [skipn].
  destruct (IH (length (skipn w (c :: a)))) with (a := skipn w (c :: a)) (b := b) (s := s) as [rs E]; auto.
  { rewrite skipn_length. cbn [length] in *. lia. }
  rewrite E. exists (fst (decode_rune ((c :: a) ++ b :: s)) :: rs). reflexivity.
Qed.

Lemma to_runes_ascii_cons : forall b s, ascii_byte b -> to_runes (b :: s) = Byte.to_N b :: to_runes s.
Proof. intros b s A. rewrite to_runes_cons, decode_ascii by assumption. reflexivity. Qed.
