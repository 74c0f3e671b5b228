From Coq Require Import String.
From Coq Require DecimalZ DecimalPos.
From Coq Require Import List Bool ZArith Lia.
From Coq Require Decimal.
From Coq.Strings Require Import Byte.
From Verif Require Import Base.Bytes Base.BytesProofs Base.Decimal.
Import ListNotations.
Open Scope list_scope.

Lemma digits_all : forall d b, In b (digits d) -> is_digit_byte b = true.
Proof.
  induction d; intros b H; simpl in H; [destruct H|..]; (destruct H as [<-|H]; [reflexivity|auto]).
Qed.

Lemma undigits_digits : forall d, undigits (digits d) = Some d.
Proof. induction d; simpl; [reflexivity|..]; rewrite IHd; reflexivity. Qed.

Lemma to_int_neg : forall z d, Z.to_int z = Decimal.Neg d -> (z < 0)%Z.
Proof. intros [|p|p] d H; simpl in H; try discriminate. lia. Qed.

Lemma to_int_pos : forall z d, Z.to_int z = Decimal.Pos d -> (0 <= z)%Z.
Proof. intros [|p|p] d H; simpl in H; try discriminate; lia. Qed.

Lemma to_uint_nonnil : forall p, Pos.to_uint p <> Decimal.Nil.
Proof. intro p. apply DecimalPos.Unsigned.to_uint_nonnil. Qed.

Lemma digits_nil : forall d, digits d = [] -> d = Decimal.Nil.
Proof. destruct d; simpl; intro H; try discriminate; reflexivity. Qed.

Lemma to_int_nonnil : forall z d, (Z.to_int z = Decimal.Pos d \/ Z.to_int z = Decimal.Neg d) -> digits d <> [].
Proof.
  intros z d H E. apply digits_nil in E. subst d.
  destruct z as [|p|p]; simpl in H; destruct H as [H|H]; try discriminate;
    injection H as H; exact (to_uint_nonnil _ H).
Qed.

Lemma Itoa_nonneg_digits : forall z, (0 <= z)%Z -> forall b, In b (Itoa z) -> is_digit_byte b = true.
Proof.
  intros z Hz b H. unfold Itoa in H. destruct (Z.to_int z) eqn:E; [eapply digits_all; eassumption|].
  apply to_int_neg in E. lia.
Qed.

Lemma Itoa_not_nil : forall z, Itoa z <> [].
Proof.
  intros z H. unfold Itoa in H. destruct (Z.to_int z) eqn:E; [|discriminate].
  eapply to_int_nonnil in H; [exact H|left; exact E].
Qed.

(** bytes of a rendered integer: digits and possibly a minus sign *)
Lemma Itoa_bytes : forall z b, In b (Itoa z) -> is_digit_byte b = true \/ b = MINUS.
Proof.
  intros z b H. unfold Itoa in H. destruct (Z.to_int z).
  - left. eapply digits_all; eassumption.
  - destruct H as [<-|H]; [right; reflexivity|left; eapply digits_all; eassumption].
Qed.

Lemma digits_head : forall d b s, digits d = b :: s -> b <> x2d /\ b <> x2b.
Proof.
  intros d b s H. destruct d; simpl in H; try discriminate; injection H as <- _; split; discriminate.
Qed.

Theorem Atoi_Itoa : forall z, (- 2 ^ 63 <= z < 2 ^ 63)%Z -> Atoi (Itoa z) = Some z.
Proof.
  intros z Hz. assert (R := DecimalZ.of_to z).
  assert (L : ((- 2 ^ 63 <=? z) && (z <? 2 ^ 63))%Z = true).
  { apply andb_true_iff. split; [apply Z.leb_le|apply Z.ltb_lt]; lia. }
  assert (LN : forall d, digits d <> [] -> (length (digits d) =? 0)%nat = false).
  { intros d H. destruct (digits d); [contradiction|reflexivity]. }
  unfold Itoa. destruct (Z.to_int z) as [d|d] eqn:E.
  - assert (NN := to_int_nonnil z d (or_introl E)).
    assert (S : split_sign (digits d) = (false, digits d)) by (destruct d; reflexivity).
    unfold Atoi. rewrite S. unfold fst, snd. rewrite (LN d NN), undigits_digits, R, L. reflexivity.
  - assert (NN := to_int_nonnil z d (or_intror E)).
    assert (S : split_sign (MINUS :: digits d) = (true, digits d)) by reflexivity.
    unfold Atoi. rewrite S. unfold fst, snd. rewrite (LN d NN), undigits_digits, R, L. reflexivity.
Qed.

Lemma Itoa_inj : forall a b, Itoa a = Itoa b -> a = b.
Proof.
  intros a b H. unfold Itoa in H.
  destruct (Z.to_int a) eqn:A, (Z.to_int b) eqn:C.
  - assert (d = d0). { pose proof (undigits_digits d) as P. rewrite H, undigits_digits in P. congruence. }
    subst. apply DecimalZ.to_int_inj. congruence.
  - destruct (digits d) as [|x s] eqn:D; [discriminate|]. injection H as -> ->.
    destruct (digits_head d _ _ D); exfalso; auto.
  - destruct (digits d0) as [|x s] eqn:D; [discriminate|]. injection H as <- <-.
    destruct (digits_head d0 _ _ D); exfalso; auto.
  - injection H as H. assert (d = d0). { pose proof (undigits_digits d) as P. rewrite H, undigits_digits in P. congruence. }
    subst. apply DecimalZ.to_int_inj. congruence.
Qed.

(** Splitting a trailing run of digits off two equal strings. *)
Lemma digit_tail : forall x1 x2 d1 d2 c1 c2,
  (x1 ++ [c1]) ++ d1 = (x2 ++ [c2]) ++ d2 ->
  is_digit_byte c1 = false -> is_digit_byte c2 = false ->
  (forall b, In b d1 -> is_digit_byte b = true) -> (forall b, In b d2 -> is_digit_byte b = true) ->
  x1 ++ [c1] = x2 ++ [c2] /\ d1 = d2.
Proof.
  intros x1 x2 d1 d2. revert d2. induction d1 as [|b d1 IH] using rev_ind; intros d2 c1 c2 H N1 N2 A1 A2.
  - destruct d2 as [|b' d2 _] using rev_ind; [rewrite !app_nil_r in H; auto|].
    rewrite app_nil_r in H. rewrite app_assoc in H. apply app_inj_tail in H. destruct H as [_ E].
    subst. rewrite A2 in N1 by (apply in_or_app; right; left; reflexivity). discriminate.
  - destruct d2 as [|b' d2 _] using rev_ind.
    + rewrite app_nil_r in H. rewrite app_assoc in H. apply app_inj_tail in H. destruct H as [_ E].
      subst. rewrite A1 in N2 by (apply in_or_app; right; left; reflexivity). discriminate.
    + rewrite !(app_assoc _ _ [_]) in H. apply app_inj_tail in H. destruct H as [H E]. subst b'.
      destruct (IH d2 c1 c2 H N1 N2) as [P Q]; [intros; apply A1; apply in_or_app; auto|intros; apply A2; apply in_or_app; auto|].
      subst. auto.
Qed.
