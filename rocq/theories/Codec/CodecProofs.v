From Coq Require Import List Bool NArith ZArith Lia.
From Coq.Strings Require Import Byte.
From Verif Require Import Base.Bytes Base.BytesProofs Base.Protocol Codec.CodecModel Codec.CodecSpec.
Import ListNotations.
Open Scope Z_scope.

Lemma Z_of_byte_range : forall b, 0 <= Z_of_byte b < 256.
Proof.
  intros b. unfold Z_of_byte. pose proof (Byte.to_N_bounded b). lia.
Qed.

Lemma Z_of_byte_of_Z : forall z, Z_of_byte (byte_of_Z z) = z mod 256.
Proof.
  intros z. unfold byte_of_Z.
  pose proof (Z.mod_pos_bound z 256 ltac:(lia)) as H.
  destruct (Byte.of_N (Z.to_N (z mod 256))) eqn:E.
  - unfold Z_of_byte. apply Byte.to_of_N in E. rewrite E. lia.
  - apply Byte.of_N_None_iff in E. lia.
Qed.

Lemma le_length : forall n v, length (le n v) = n.
Proof. induction n; simpl; intros; [reflexivity|]. now rewrite IHn. Qed.

Lemma le_val_le : forall n v, le_val (le n v) = v mod 2 ^ (8 * Z.of_nat n).
Proof.
  induction n as [|n IH]; intros v.
  - simpl. now rewrite Z.mod_1_r.
  - cbn [le le_val]. rewrite IH, Z_of_byte_of_Z.
    replace (8 * Z.of_nat (S n)) with (8 + 8 * Z.of_nat n) by lia.
    rewrite Z.pow_add_r by lia. change (2 ^ 8) with 256.
    assert (P : 0 < 2 ^ (8 * Z.of_nat n)) by (apply Z.pow_pos_nonneg; lia).
    rewrite Z.rem_mul_r by lia. reflexivity.
Qed.

Global Opaque le.

(** ** Round-trip predicate for (bytes, reader, value) *)
Definition rt {A} (w : gostr) (r : dec A) (v : A) : Prop :=
  forall rest, r (w ++ rest) = Some (v, rest).

Lemma rt_ret : forall A (v : A), rt [] (ret v) v.
Proof. intros A v rest. reflexivity. Qed.

Lemma rt_bind : forall A C w1 w2 (m : dec A) (k : A -> dec C) a c,
  rt w1 m a -> rt w2 (k a) c -> rt (w1 ++ w2) (bind m k) c.
Proof.
  intros A C w1 w2 m k a c H1 H2 rest. unfold bind.
  rewrite <- app_assoc, H1. apply H2.
Qed.

Lemma rt_bind_ret : forall A C w (m : dec A) (f : A -> C) a,
  rt w m a -> rt w (bind m (fun x => ret (f x))) (f a).
Proof. intros A C w m f a H rest. unfold bind. now rewrite H. Qed.

Lemma rt_word : forall n v, rt (le n v) (read_word n) (v mod 2 ^ (8 * Z.of_nat n)).
Proof.
  intros n v rest. unfold read_word.
  rewrite app_length, le_length.
  destruct (Nat.ltb_spec (n + length rest) n); [lia|].
  rewrite firstn_app, le_length, Nat.sub_diag. simpl firstn.
  rewrite <- (le_length n v) at 1. rewrite firstn_all, app_nil_r.
  rewrite le_val_le. f_equal. f_equal.
  rewrite skipn_app, le_length, Nat.sub_diag.
  rewrite <- (le_length n v) at 1. rewrite skipn_all. reflexivity.
Qed.

Lemma rt_word_id : forall n v, 0 <= v < 2 ^ (8 * Z.of_nat n) -> rt (le n v) (read_word n) v.
Proof.
  intros n v H rest. rewrite rt_word. now rewrite Z.mod_small.
Qed.

Lemma rt_int : forall z, int64 z -> rt (le 8 z) ReadInt z.
Proof.
  intros z [L U] rest. unfold ReadInt, bind. rewrite (rt_word 8 z rest).
  unfold ret. f_equal. f_equal. unfold to_signed.
  change (8 * Z.of_nat 8) with 64. change (64 - 1) with 63.
  destruct (Z_lt_le_dec z 0).
  - rewrite <- (Z.mod_unique z (2 ^ 64) (-1) (z + 2 ^ 64)); [|left; lia|lia].
    destruct (Z.ltb_spec (z + 2 ^ 64) (2 ^ 63)); lia.
  - rewrite Z.mod_small by lia. destruct (Z.ltb_spec z (2 ^ 63)); lia.
Qed.

Definition bytes_enc (b : gostr) : gostr := le 8 (Z.of_nat (length b)) ++ b.

Lemma rt_bytes : forall b, go_len b -> rt (bytes_enc b) ReadBytes b.
Proof.
  intros b H. unfold bytes_enc, ReadBytes.
  apply rt_bind with (a := Z.of_nat (length b)).
  - apply rt_int. unfold go_len, int64 in *. lia.
  - intros rest. rewrite app_length.
    destruct (Z.ltb_spec (Z.of_nat (length b)) 0); [lia|].
    destruct (Z.ltb_spec (Z.of_nat (length b + length rest)) (Z.of_nat (length b))); [lia|].
    simpl orb. cbv iota. rewrite Nat2Z.id.
    rewrite firstn_app, firstn_all, Nat.sub_diag, skipn_app, skipn_all, Nat.sub_diag.
    simpl. now rewrite app_nil_r.
Qed.

Lemma rt_bool : forall b : bool, rt [if b then x01 else x00] ReadBool b.
Proof. intros [] rest; reflexivity. Qed.

Definition pos_enc (p : position) : gostr := le 8 (p_line p) ++ le 8 (p_char p).
Lemma rt_pos : forall p, pos_ok p -> rt (pos_enc p) ReadPosition p.
Proof.
  intros [l c] [H1 H2]. unfold pos_enc, ReadPosition. simpl in *.
  eapply rt_bind; [apply rt_int; assumption|].
  apply (rt_bind_ret _ _ _ _ (fun x => Pos l x)). now apply rt_int.
Qed.

Definition loc_enc (l : location) : gostr :=
  bytes_enc (l_uri l) ++ pos_enc (r_start (l_range l)) ++ pos_enc (r_end (l_range l)).
Lemma rt_loc : forall l, loc_ok l -> rt (loc_enc l) ReadLocation l.
Proof.
  intros [u [a b]] (H1 & H2 & H3). unfold loc_enc, ReadLocation, ReadString. simpl in *.
  eapply rt_bind; [apply rt_bytes; assumption|].
  eapply rt_bind; [apply rt_pos; assumption|].
  apply (rt_bind_ret _ _ _ _ (fun x => Loc u (Rng a x))). now apply rt_pos.
Qed.

(** ** Writers append *)
Lemma WriteInt_app : forall e z, WriteInt e z = e ++ le 8 z.
Proof. reflexivity. Qed.
Lemma WriteBytes_app : forall e b, WriteBytes e b = e ++ bytes_enc b.
Proof. intros. unfold WriteBytes, bytes_enc. cbv zeta. rewrite WriteInt_app. now rewrite app_assoc. Qed.
Lemma WriteString_app : forall e b, WriteString e b = e ++ bytes_enc b.
Proof. intros. apply WriteBytes_app. Qed.
Lemma WriteBool_app : forall e b, WriteBool e b = e ++ [if b then x01 else x00].
Proof. reflexivity. Qed.
Lemma WritePosition_app : forall e p, WritePosition e p = e ++ pos_enc p.
Proof. intros. unfold WritePosition, pos_enc. cbv zeta. rewrite !WriteInt_app. now rewrite app_assoc. Qed.
Lemma WriteLocation_app : forall e l, WriteLocation e l = e ++ loc_enc l.
Proof.
  intros. unfold WriteLocation, loc_enc. cbv zeta.
  rewrite !WritePosition_app, WriteString_app. now rewrite !app_assoc.
Qed.

Definition val_enc (v : gval) : gostr := write_val [] v.

Lemma write_val_app : forall e v, write_val e v = e ++ val_enc v.
Proof.
  intros e v. unfold val_enc.
  destruct v; simpl; try reflexivity;
    rewrite ?WriteBytes_app, ?WriteString_app, ?WritePosition_app, ?WriteLocation_app; reflexivity.
Qed.

Lemma rt_val : forall v, val_ok v -> rt (val_enc v) (read_val (type_of v)) v.
Proof.
  intros v H. destruct v; unfold val_enc; simpl in *.
  - apply rt_bind_ret. rewrite WriteInt_app. now apply rt_int.
  - apply rt_bind_ret. now apply (rt_word_id 8).
  - apply rt_bind_ret. now apply (rt_word_id 4).
  - apply rt_bind_ret. now apply (rt_word_id 8).
  - apply rt_bind_ret. now apply (rt_word_id 4).
  - apply rt_bind_ret. rewrite WriteBytes_app. now apply rt_bytes.
  - apply rt_bind_ret. rewrite WriteString_app. now apply rt_bytes.
  - apply rt_bind_ret. apply rt_bool.
  - apply rt_bind_ret. rewrite WritePosition_app. now apply rt_pos.
  - apply rt_bind_ret. rewrite WriteLocation_app. now apply rt_loc.
Qed.

Lemma write_all_app : forall vs e, write_all e vs = e ++ write_all [] vs.
Proof.
  unfold write_all. induction vs as [|v vs IH]; intros e; simpl.
  - now rewrite app_nil_r.
  - rewrite (IH (write_val e v)), (IH (write_val [] v)).
    rewrite (write_val_app e v), (write_val_app [] v). simpl. now rewrite app_assoc.
Qed.

Lemma write_all_cons : forall v vs, write_all [] (v :: vs) = val_enc v ++ write_all [] vs.
Proof. intros. unfold write_all at 1. simpl. fold (write_all (write_val [] v) vs). apply write_all_app. Qed.

Lemma rt_all : forall vs, Forall val_ok vs -> rt (write_all [] vs) (read_all (map type_of vs)) vs.
Proof.
  induction vs as [|v vs IH]; intros H.
  - apply rt_ret.
  - inversion_clear H. rewrite write_all_cons. simpl.
    eapply rt_bind; [now apply rt_val|].
    apply (rt_bind_ret _ _ _ _ (fun x => v :: x)). now apply IH.
Qed.

(** ** Lists *)
Lemma write_list_app : forall A (w : enc -> A -> enc) (f : A -> gostr),
  (forall e a, w e a = e ++ f a) ->
  forall e l, write_list w e l = e ++ le 8 (Z.of_nat (length l)) ++ flat_map f l.
Proof.
  intros A w f H e l. unfold write_list. rewrite WriteInt_app. generalize (le 8 (Z.of_nat (length l))).
  intros g. rewrite app_assoc. generalize (e ++ g). clear g e.
  induction l as [|a l IH]; intros e; simpl.
  - now rewrite app_nil_r.
  - rewrite IH, H. now rewrite app_assoc.
Qed.

Lemma rt_times : forall A (r : dec A) (f : A -> gostr) (g : A -> A) l,
  Forall (fun a => rt (f a) r (g a)) l -> rt (flat_map f l) (read_times r (length l)) (map g l).
Proof.
  intros A r f g. induction l as [|a l IH]; intros H.
  - apply rt_ret.
  - inversion_clear H. simpl. eapply rt_bind; [eassumption|].
    apply (rt_bind_ret _ _ _ _ (fun x => g a :: x)). now apply IH.
Qed.

Lemma rt_list : forall A (r : dec A) (f : A -> gostr) (g : A -> A) l,
  go_len l -> Forall (fun a => rt (f a) r (g a)) l ->
  rt (le 8 (Z.of_nat (length l)) ++ flat_map f l) (read_list r) (map g l).
Proof.
  intros A r f g l L H. unfold read_list.
  eapply rt_bind; [apply rt_int; unfold int64, go_len in *; lia|].
  rewrite Nat2Z.id. now apply rt_times.
Qed.

(** ** Truncation: reading fewer bytes than were written fails *)
Definition mono {A} (r : dec A) : Prop :=
  forall s a rest t, r s = Some (a, rest) -> r (s ++ t) = Some (a, rest ++ t).

Lemma mono_ret : forall A (a : A), mono (ret a).
Proof. intros A a s b rest t H. unfold ret in *. injection H as <- <-. reflexivity. Qed.

Lemma mono_bind : forall A C (m : dec A) (k : A -> dec C),
  mono m -> (forall a, mono (k a)) -> mono (bind m k).
Proof.
  intros A C m k Hm Hk s c rest t H. unfold bind in *.
  destruct (m s) as [[a s']|] eqn:E; [|discriminate].
  rewrite (Hm _ _ _ t E). now apply Hk.
Qed.

Lemma mono_word : forall n, mono (read_word n).
Proof.
  intros n s a rest t H. unfold read_word in *.
  destruct (Nat.ltb_spec (length s) n); [discriminate|].
  rewrite app_length. destruct (Nat.ltb_spec (length s + length t) n); [lia|].
  injection H as <- <-.
  rewrite firstn_app, skipn_app. replace (n - length s)%nat with 0%nat by lia.
  simpl. now rewrite app_nil_r.
Qed.

Lemma mono_int : mono ReadInt.
Proof. apply mono_bind; [apply mono_word|]. intros; apply mono_ret. Qed.

Lemma mono_bytes : mono ReadBytes.
Proof.
  apply mono_bind; [apply mono_int|]. intros z s a rest t H.
  destruct (Z.ltb_spec z 0); [discriminate|].
  destruct (Z.ltb_spec (Z.of_nat (length s)) z); [discriminate|].
  rewrite app_length. destruct (Z.ltb_spec (Z.of_nat (length s + length t)) z); [lia|].
  simpl in *. injection H as <- <-.
  rewrite firstn_app, skipn_app. replace (Z.to_nat z - length s)%nat with 0%nat by lia.
  simpl. now rewrite app_nil_r.
Qed.

Lemma mono_bool : mono ReadBool.
Proof.
  intros [|b s] a rest t H; simpl in *; [discriminate|]. injection H as <- <-. reflexivity.
Qed.

Lemma mono_pos : mono ReadPosition.
Proof. repeat (apply mono_bind; [apply mono_int|intros]). apply mono_ret. Qed.

Lemma mono_loc : mono ReadLocation.
Proof.
  apply mono_bind; [apply mono_bytes|intros].
  repeat (apply mono_bind; [apply mono_pos|intros]). apply mono_ret.
Qed.

Lemma mono_val : forall t, mono (read_val t).
Proof.
  intros []; simpl; apply mono_bind; try (intros; apply mono_ret);
    first [apply mono_int | apply mono_word | apply mono_bytes | apply mono_bool | apply mono_pos | apply mono_loc].
Qed.

Lemma mono_all : forall ts, mono (read_all ts).
Proof.
  induction ts as [|t ts IH]; simpl; [apply mono_ret|].
  apply mono_bind; [apply mono_val|intros]. apply mono_bind; [apply IH|intros]. apply mono_ret.
Qed.

Lemma rt_truncated : forall A (w : gostr) (r : dec A) v p q,
  rt w r v -> mono r -> w = p ++ q -> q <> [] -> r p = None.
Proof.
  intros A w r v p q H M -> Hq. destruct (r p) as [[a rest]|] eqn:E; [|reflexivity].
  apply (M _ _ _ q) in E. specialize (H []). rewrite app_nil_r in H.
  rewrite H in E. injection E as _ E.
  destruct rest; simpl in E; [|discriminate]. congruence.
Qed.

Lemma read_all_truncated : forall vs p q,
  Forall val_ok vs -> write_all [] vs = p ++ q -> q <> [] -> read_all (map type_of vs) p = None.
Proof.
  intros vs p q H E Hq. eapply rt_truncated; eauto using mono_all. now apply rt_all.
Qed.
