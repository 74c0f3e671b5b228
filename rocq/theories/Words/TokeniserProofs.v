From Coq Require Import List Bool NArith Arith Lia.
From Coq.Strings Require Import Byte.
From Verif Require Import Base.Bytes Base.BytesProofs Base.Utf8 Words.TokeniserModel Words.TokeniserSpec.
Import ListNotations.

(** ** substrings *)
Lemma substring_slice : forall s i j, i <= j -> j <= length s -> substring (slice s i j) s.
Proof.
  intros s i j H1 H2. exists (firstn i s), (skipn j s). unfold slice.
  rewrite <- (firstn_skipn i s) at 1. f_equal.
  rewrite <- (firstn_skipn (j - i) (skipn i s)) at 1. f_equal.
  rewrite skipn_skipn. f_equal. lia.
Qed.
Lemma substring_refl : forall s, substring s s.
Proof. intros s. exists [], []. simpl. now rewrite app_nil_r. Qed.

Lemma go_slice_some : forall s i j w, go_slice s i j = Some w ->
  w = slice s i j /\ i <= j <= length s.
Proof.
  intros s i j w H. unfold go_slice in H. destruct (i <=? j) eqn:E1, (j <=? length s) eqn:E2; simpl in H; try discriminate.
  apply Nat.leb_le in E1, E2. injection H as <-. auto.
Qed.
Lemma go_slice_ok : forall s i j, i <= j -> j <= length s -> go_slice s i j = Some (slice s i j).
Proof.
  intros s i j H1 H2. unfold go_slice. apply Nat.leb_le in H1, H2. now rewrite H1, H2.
Qed.
Lemma slice_length : forall s i j, i <= j -> j <= length s -> length (slice s i j) = j - i.
Proof. intros. unfold slice. rewrite firstn_length, skipn_length. lia. Qed.

Lemma drop_while_suffix : forall f s, exists p, s = p ++ drop_while f s.
Proof.
  induction s as [|x s IH]; simpl; [exists []; reflexivity|].
  destruct (f x); [|exists []; reflexivity]. destruct IH as [p E]. exists (x :: p). simpl. now rewrite <- E.
Qed.
Lemma trim_right_prefix : forall f s, exists p, s = trim_right f s ++ p.
Proof.
  intros f s. unfold trim_right. destruct (drop_while_suffix f (rev s)) as [p E]. exists (rev p).
  rewrite <- (rev_involutive s) at 1. rewrite E at 1. now rewrite rev_app_distr.
Qed.
Lemma trim_both_substring : forall f s, substring (trim_both f s) s.
Proof.
  intros f s. unfold trim_both, trim_left. destruct (drop_while_suffix f s) as [p E].
  destruct (trim_right_prefix f (drop_while f s)) as [q E2]. exists p, q. now rewrite <- E2.
Qed.

(** ** soundness, on any bytes *)
Section Gen.
  Variables is_upper is_digit : N -> bool.
  Variable name : gostr.

  Lemma append_word_sub : forall s0 ws i j ws', append_word name s0 ws i j = Some ws' ->
    Forall (fun w => substring w name) ws -> Forall (fun w => substring w name) ws'.
  Proof.
    intros s0 ws i j ws' H F. unfold append_word in H.
    destruct (go_slice name i j) as [w|] eqn:E; [|discriminate].
    apply go_slice_some in E as [-> [L1 L2]]. destruct (s0 =? 0); injection H as <-; [assumption|].
    apply Forall_app. split; [assumption|]. constructor; [|constructor]. now apply substring_slice.
  Qed.

  Lemma cstep_sub : forall st ir st', cstep is_upper is_digit name st ir = Some st' ->
    Forall (fun w => substring w name) (words st) -> Forall (fun w => substring w name) (words st').
  Proof.
    intros st [i r] st' H F. unfold cstep in H.
    destruct (N.eqb r 95).
    { destruct (start st <? lastTokenIndex st).
      - destruct (go_slice name (start st) (lastTokenIndex st + 1)) as [w|] eqn:E; [|discriminate].
        apply go_slice_some in E as [-> [L1 L2]]. injection H as <-. simpl.
        apply Forall_app. split; [assumption|]. constructor; [|constructor]. now apply substring_slice.
      - injection H as <-. assumption. }
    destruct (N.eqb r RuneError).
    { match type of H with match (if ?c then _ else _) with _ => _ end = _ => destruct c end.
      - match type of H with match ?a with _ => _ end = _ => destruct a eqn:E; [|discriminate] end.
        injection H as <-. simpl. eapply append_word_sub; eauto.
      - injection H as <-. assumption. }
    match type of H with (if ?c then _ else _) = _ => destruct c end; [|injection H as <-; assumption].
    match type of H with (if ?c then _ else _) = _ => destruct c end.
    - match type of H with match (if ?c then _ else _) with _ => _ end = _ => destruct c end.
      + match type of H with match ?a with _ => _ end = _ => destruct a eqn:E; [|discriminate] end.
        injection H as <-. simpl. eapply append_word_sub; eauto.
      + injection H as <-. assumption.
    - match type of H with match ?a with _ => _ end = _ => destruct a eqn:E; [|discriminate] end.
      injection H as <-. simpl. eapply append_word_sub; eauto.
  Qed.

  Lemma cloop_sub : forall l st st', cloop is_upper is_digit name st l = Some st' ->
    Forall (fun w => substring w name) (words st) -> Forall (fun w => substring w name) (words st').
  Proof.
    induction l as [|ir l IH]; intros st st' H F; simpl in H.
    - injection H as <-. assumption.
    - destruct (cstep is_upper is_digit name st ir) as [st1|] eqn:E; [|discriminate].
      eapply IH; [exact H|]. eapply cstep_sub; eauto.
  Qed.

  Lemma casing_sub : forall ws, casing is_upper is_digit name = Some ws -> Forall (fun w => substring w name) ws.
  Proof.
    intros ws H. unfold casing in H.
    destruct (cloop is_upper is_digit name cinit (range_runes name)) as [st|] eqn:E; [|discriminate].
    assert (F : Forall (fun w => substring w name) (words st)).
    { eapply cloop_sub; [exact E|constructor]. }
    destruct (start st <? length name); [eapply append_word_sub; eauto|]. now injection H as <-.
  Qed.
End Gen.

(** ** removeDup *)
Lemma existsb_str_in : forall x l, existsb (fun y => str_eqb y x) l = true <-> In x l.
Proof.
  intros x l. rewrite existsb_exists. split.
  - intros (y & I & E). apply str_eqb_eq in E. now subst.
  - intros I. exists x. split; [assumption|apply str_eqb_refl].
Qed.
Lemma remove_dup_in : forall l seen x, In x (remove_dup seen l) <-> In x l /\ ~ In x seen.
Proof.
  induction l as [|a l IH]; intros seen x; simpl; [tauto|].
  destruct (existsb (fun y => str_eqb y a) seen) eqn:E.
  - apply existsb_str_in in E. rewrite IH. split; [tauto|]. intros [[->|I] N]; [contradiction|tauto].
  - assert (N : ~ In a seen) by (intro I; apply existsb_str_in in I; congruence).
    simpl. rewrite IH. simpl. destruct (str_eq_dec a x) as [->|D]; [tauto|]. tauto.
Qed.
Lemma remove_dup_nodup : forall l seen, NoDup (remove_dup seen l).
Proof.
  induction l as [|a l IH]; intros seen; simpl; [constructor|].
  destruct (existsb (fun y => str_eqb y a) seen); [apply IH|].
  constructor; [|apply IH]. rewrite remove_dup_in. simpl. tauto.
Qed.

Lemma Tokenise_in : forall up dg name toks ws,
  Tokenise up dg name = Some toks -> casing up dg name = Some ws ->
  forall t, In t toks <-> t = name \/ t = trim_both is_us name \/ In t ws.
Proof.
  intros up dg name toks ws H C t. unfold Tokenise in H. rewrite C in H.
  match type of H with Some ?x = _ => assert (E0 : toks = x) by congruence end. subst toks. clear H.
  rewrite remove_dup_in, in_app_iff. simpl.
  destruct (str_eqb_spec (trim_both is_us name) name) as [E|E]; simpl; [rewrite E|]; intuition congruence.
Qed.

Lemma Tokenise_sound : forall up dg name toks, Tokenise up dg name = Some toks ->
  (exists rest, toks = name :: rest) /\ NoDup toks /\ forall t, In t toks -> substring t name.
Proof.
  intros up dg name toks H. destruct (casing up dg name) as [ws|] eqn:C.
  2: { unfold Tokenise in H. rewrite C in H. discriminate. }
  repeat split.
  - unfold Tokenise in H. rewrite C in H. injection H as <-. simpl. eexists. reflexivity.
  - unfold Tokenise in H. rewrite C in H.
    match type of H with Some ?x = _ => assert (E0 : toks = x) by congruence end. subst toks.
    apply remove_dup_nodup.
  - intros t I. rewrite (Tokenise_in _ _ _ _ _ H C) in I. destruct I as [->|[->|I]].
    + apply substring_refl.
    + apply trim_both_substring.
    + pose proof (casing_sub _ _ _ _ C) as F. rewrite Forall_forall in F. auto.
Qed.

(** ** decoding *)
Lemma decode_rune_width : forall b s, 1 <= snd (decode_rune (b :: s)) <= length (b :: s).
Proof.
  intros b s. unfold decode_rune.
  destruct (N.ltb (Byte.to_N b) 128); simpl; [lia|].
  destruct (in_rng 194 223 b); simpl.
  { destruct s as [|b1 s]; simpl; [lia|]. destruct (in_rng 128 191 b1); simpl; lia. }
  destruct (in_rng 224 239 b); simpl.
  { destruct s as [|b1 [|b2 s]]; simpl; try lia.
    destruct (in_rng (if (Byte.to_N b =? 224)%N then 160%N else 128%N) (if (Byte.to_N b =? 237)%N then 159%N else 191%N) b1
              && in_rng 128 191 b2); simpl; lia. }
  destruct (in_rng 240 244 b); simpl; [|lia].
  destruct s as [|b1 [|b2 [|b3 s]]]; simpl; try lia.
  destruct (in_rng (if (Byte.to_N b =? 240)%N then 144%N else 128%N) (if (Byte.to_N b =? 244)%N then 143%N else 191%N) b1
              && in_rng 128 191 b2 && in_rng 128 191 b3); simpl; lia.
Qed.

(** an underscore is one byte wide *)
Lemma decode_rune_small : forall b s r w, decode_rune (b :: s) = (r, w) -> (r < 128)%N -> w = 1.
Proof.
  intros b s r w H L. unfold decode_rune in H.
  destruct (N.ltb_spec (Byte.to_N b) 128); [now injection H|].
  unfold in_rng, cont, RuneError in H.
  destruct ((194 <=? Byte.to_N b)%N && (Byte.to_N b <=? 223)%N) eqn:E1.
  { apply andb_true_iff in E1 as [E1 _]. apply N.leb_le in E1.
    destruct s as [|b1 s]; [now injection H|].
    destruct ((128 <=? Byte.to_N b1)%N && (Byte.to_N b1 <=? 191)%N); injection H as <- <-; [|lia].
    exfalso. nia. }
  destruct ((224 <=? Byte.to_N b)%N && (Byte.to_N b <=? 239)%N) eqn:E2.
  { apply andb_true_iff in E2 as [E2 _]. apply N.leb_le in E2.
    destruct s as [|b1 [|b2 s]]; [now injection H|now injection H|].
    match type of H with (if ?c then _ else _) = _ => destruct c eqn:E3 end; injection H as <- <-; [|lia].
    exfalso. apply andb_true_iff in E3 as [E3 _]. apply andb_true_iff in E3 as [E3 _]. apply N.leb_le in E3.
    destruct (N.eqb_spec (Byte.to_N b) 224); nia. }
  destruct ((240 <=? Byte.to_N b)%N && (Byte.to_N b <=? 244)%N) eqn:E4; [|injection H as <- <-; lia].
  apply andb_true_iff in E4 as [E4 _]. apply N.leb_le in E4.
  destruct s as [|b1 [|b2 [|b3 s]]]; [now injection H|now injection H|now injection H|].
  match type of H with (if ?c then _ else _) = _ => destruct c eqn:E3 end; injection H as <- <-; [|lia].
  exfalso. apply andb_true_iff in E3 as [E3 _]. apply andb_true_iff in E3 as [E3 _].
  apply andb_true_iff in E3 as [E3 _]. apply N.leb_le in E3.
  destruct (N.eqb_spec (Byte.to_N b) 240); nia.
Qed.

(** ** no failure and no empty word on well encoded text *)
Section NoFail.
  Variables is_upper is_digit : N -> bool.
  Variable name : gostr.

  (** [n]: the offset of the next rune *)
  Definition safe (n : nat) (st : cstate) : Prop :=
    start st <= n /\ markNextAsStart st = false
    /\ (lastClass st <> 0 -> start st <= prev st < n)
    /\ (lastTokenIndex st < n \/ lastTokenIndex st = 0)
    /\ Forall (fun w => w <> []) (words st).

  Lemma slice_nonempty : forall i j, i < j -> j <= length name -> slice name i j <> [].
  Proof.
    intros i j H1 H2 E. pose proof (slice_length name i j ltac:(lia) H2) as L. rewrite E in L. simpl in L. lia.
  Qed.

  Lemma append_word_safe : forall s0 ws i j, i < j -> j <= length name -> Forall (fun w => w <> []) ws ->
    exists ws', append_word name s0 ws i j = Some ws' /\ Forall (fun w => w <> []) ws'.
  Proof.
    intros s0 ws i j H1 H2 F. unfold append_word. rewrite go_slice_ok by lia.
    destruct (s0 =? 0); eexists; (split; [reflexivity|]); [assumption|].
    apply Forall_app. split; [assumption|]. constructor; [|constructor]. now apply slice_nonempty.
  Qed.

  Lemma class_pos : forall r, class_of is_upper is_digit r <> 0.
  Proof. intros r. unfold class_of. destruct (is_upper r), (is_digit r); discriminate. Qed.

  Lemma cstep_safe : forall st i r w, safe i st -> r <> RuneError -> i + w <= length name -> 1 <= w ->
    (r = 95%N -> w = 1) ->
    exists st', cstep is_upper is_digit name st (i, r) = Some st' /\ safe (i + w) st'.
  Proof.
    intros [ws lc s pv lt mk] i r w (H1 & H2 & H3 & H4 & H5) NE L W U. simpl in *. subst mk.
    unfold cstep; simpl. destruct (N.eqb_spec r 95) as [E|E].
    - specialize (U E). subst w.
      destruct (s <? lt) eqn:Q.
      + apply Nat.ltb_lt in Q. rewrite go_slice_ok by lia.
        eexists. split; [reflexivity|]. unfold safe; simpl; repeat split; try lia.
        apply Forall_app. split; [assumption|]. constructor; [|constructor]. apply slice_nonempty; lia.
      + eexists. split; [reflexivity|]. unfold safe; simpl; repeat split; try lia; assumption.
    - destruct (N.eqb_spec r RuneError) as [|_]; [contradiction|].
      pose proof (class_pos r) as CP.
      destruct (Nat.eqb_spec lc 0) as [->|LC]; simpl.
      { eexists. split; [reflexivity|]. unfold safe; simpl; repeat split; try lia; assumption. }
      specialize (H3 LC).
      destruct (Nat.eqb_spec (class_of is_upper is_digit r) lc) as [EC|EC]; simpl.
      { eexists. split; [reflexivity|]. unfold safe; simpl; repeat split; try lia; assumption. }
      destruct ((lc =? 2) && (class_of is_upper is_digit r =? 1)) eqn:T.
      + destruct (Nat.eqb_spec s pv) as [Q|Q]; simpl.
        * eexists. split; [reflexivity|]. unfold safe; simpl; repeat split; try lia; assumption.
        * destruct (append_word_safe s ws s pv) as (ws' & A & F); [lia|lia|assumption|].
          rewrite A. eexists. split; [reflexivity|]. unfold safe; simpl; repeat split; try lia; assumption.
      + destruct (append_word_safe s ws s i) as (ws' & A & F); [lia|lia|assumption|].
        rewrite A. eexists. split; [reflexivity|]. unfold safe; simpl; repeat split; try lia; assumption.
  Qed.

  Lemma cloop_safe : forall fuel s i st, length s <= fuel -> i + length s = length name ->
    (forall j r, In (j, r) (runes_at fuel i s) -> r <> RuneError) -> safe i st ->
    exists st', cloop is_upper is_digit name st (runes_at fuel i s) = Some st' /\ safe (length name) st'.
  Proof.
    induction fuel as [|fuel IH]; intros s i st LF LN NE S.
    - destruct s; [|simpl in LF; lia]. simpl in *. exists st. replace (length name) with i by lia. auto.
    - destruct s as [|b s].
      + simpl in *. exists st. replace (length name) with i by lia. auto.
      + pose proof (decode_rune_width b s) as W. cbn [runes_at] in NE |- *.
        destruct (decode_rune (b :: s)) as [r w] eqn:D. simpl in W.
        simpl in LN, LF.
        destruct (cstep_safe st i r w S) as (st1 & E1 & S1).
        * eapply NE. now left.
        * lia.
        * lia.
        * intros ->. eapply decode_rune_small; [exact D|reflexivity].
        * cbn [cloop]. rewrite E1.
          apply IH.
          -- rewrite skipn_length. cbn [length]. lia.
          -- rewrite skipn_length. cbn [length]. lia.
          -- intros j r' I. eapply NE. right. exact I.
          -- exact S1.
  Qed.

  Lemma casing_ok : well_encoded name ->
    exists ws, casing is_upper is_digit name = Some ws /\ Forall (fun w => w <> []) ws.
  Proof.
    intros WE. unfold casing.
    destruct (cloop_safe (length name) name 0 cinit) as (st & E & S); auto.
    { unfold safe; simpl; repeat split; try lia. constructor. }
    unfold range_runes. rewrite E. destruct S as (S1 & S2 & S3 & S4 & S5).
    destruct (start st <? length name) eqn:Q; [|eauto].
    apply Nat.ltb_lt in Q. apply append_word_safe; [lia|lia|assumption].
  Qed.
End NoFail.

Lemma drop_while_nil : forall f s, drop_while f s = [] -> forall x, In x s -> f x = true.
Proof.
  induction s as [|y s IH]; simpl; intros H x [].
  - subst. destruct (f x); [reflexivity|discriminate].
  - destruct (f y); [auto|discriminate].
Qed.

Lemma drop_while_head : forall f s x t, drop_while f s = x :: t -> f x = false.
Proof.
  induction s as [|y s IH]; simpl; intros x t H; [discriminate|].
  destruct (f y) eqn:E; [eauto|]. injection H as <- <-. assumption.
Qed.

Lemma trim_both_nil : forall f s, trim_both f s = [] -> forall x, In x s -> f x = true.
Proof.
  intros f s H. unfold trim_both, trim_right, trim_left in H.
  assert (E : drop_while f s = []).
  { destruct (drop_while f s) as [|y t] eqn:D; [reflexivity|]. exfalso.
    pose proof (drop_while_head _ _ _ _ D) as F.
    assert (G : drop_while f (rev (y :: t)) = []).
    { destruct (drop_while f (rev (y :: t))) as [|z u]; [reflexivity|].
      simpl in H. apply app_eq_nil in H as [_ H]. discriminate. }
    pose proof (drop_while_nil _ _ G y) as A. rewrite F in A.
    discriminate A. apply in_rev. rewrite rev_involutive. now left. }
  now apply drop_while_nil.
Qed.

Lemma Tokenise_ok : forall up dg name, well_encoded name ->
  exists toks, Tokenise up dg name = Some toks
    /\ ((exists b, In b name /\ b <> US) -> forall t, In t toks -> t <> []).
Proof.
  intros up dg name WE. destruct (casing_ok up dg name WE) as (ws & C & F).
  unfold Tokenise. rewrite C. eexists. split; [reflexivity|].
  intros (b & I & N) t T. rewrite remove_dup_in, in_app_iff in T. destruct T as [[T|T] _].
  - destruct T as [<-|T]; [intros ->; destruct I|].
    destruct (str_eqb _ _); [destruct T|]. destruct T as [<-|[]]. intros E.
    pose proof (trim_both_nil _ _ E b I) as U. unfold is_us in U. apply byte_eqb_eq in U. contradiction.
  - rewrite Forall_forall in F. auto.
Qed.

(** ** the words of an ASCII name *)
Section Ascii.
  Variables is_upper is_digit : N -> bool.
  Variable name : gostr.
  Hypothesis Hascii : ascii name.

  Fixpoint idx_runes (i : nat) (s : gostr) : list (nat * N) :=
    match s with [] => [] | b :: s' => (i, Byte.to_N b) :: idx_runes (S i) s' end.

  Lemma runes_ascii : forall fuel s i, length s <= fuel -> ascii s -> runes_at fuel i s = idx_runes i s.
  Proof.
    induction fuel as [|fuel IH]; intros s i L A.
    - destruct s; [reflexivity|simpl in L; lia].
    - destruct s as [|b s]; [reflexivity|]. simpl runes_at. unfold decode_rune.
      assert (E : (Byte.to_N b <? 128)%N = true) by (apply N.ltb_lt; apply A; now left).
      rewrite E. simpl. f_equal. rewrite Nat.add_1_r. apply IH; [simpl in L; lia|].
      intros x I. apply A. now right.
  Qed.

  Notation C := (cls is_upper is_digit name).
  Notation wstart := (word_start is_upper is_digit name).
  Notation Word := (word is_upper is_digit name).

  (** a start, as far as the first [i] characters can tell *)
  Definition start_upto (i k : nat) : Prop :=
    wstart k /\ k < i /\
    (k + 1 < i \/ k = 0 \/ C (k - 1) = 0 \/ (C (k - 1) <> C k /\ ~ (C (k - 1) = 2 /\ C k = 1))).

  Notation long_enough := (long_enough is_upper is_digit name).

  Definition winv (i : nat) (st : cstate) : Prop :=
    markNextAsStart st = false
    /\ (i = 0 -> lastClass st = 0 /\ start st = 0)
    /\ (0 < i -> C (i - 1) = 0 -> lastClass st = 0 /\ start st = i)
    /\ (0 < i -> C (i - 1) <> 0 ->
          lastClass st = C (i - 1) /\ prev st = i - 1 /\ lastTokenIndex st = i - 1
          /\ start_upto i (start st)
          /\ forall k, start st < k < i -> ~ start_upto i k /\ C k <> 0)
    /\ (forall a b, Word a b -> 0 < a -> b <= start st -> long_enough a b -> In (slice name a b) (words st))
    /\ (lastTokenIndex st < i \/ lastTokenIndex st = 0).

  Lemma cls_nth : forall i b, nth_error name i = Some b ->
    C i = if byte_eqb b US then 0 else class_of is_upper is_digit (Byte.to_N b).
  Proof. intros i b H. unfold cls. now rewrite H. Qed.

  Lemma cls_end : forall i, length name <= i -> C i = 4.
  Proof. intros i H. unfold cls. apply nth_error_None in H. now rewrite H. Qed.

  Lemma us_code : forall b, N.eqb (Byte.to_N b) 95 = byte_eqb b US.
  Proof.
    intros b. destruct (byte_eqb_spec b US) as [->|N]; [reflexivity|].
    apply N.eqb_neq. intro E. apply N. apply to_N_inj. rewrite E. reflexivity.
  Qed.

  Lemma append_word_eq : forall s0 ws i j, i <= j -> j <= length name ->
    append_word name s0 ws i j = Some (if s0 =? 0 then ws else ws ++ [slice name i j]).
  Proof. intros. unfold append_word. rewrite go_slice_ok by lia. destruct (s0 =? 0); reflexivity. Qed.

  Lemma class_range : forall r, class_of is_upper is_digit r = 1 \/ class_of is_upper is_digit r = 2 \/ class_of is_upper is_digit r = 3.
  Proof. intros r. unfold class_of. destruct (is_upper r), (is_digit r); auto. Qed.

  (** the only word that can end in (start, i] when i-1 is a word character *)
  Lemma word_from_start : forall i s a b, i <= length name -> 0 < i -> C (i - 1) <> 0 ->
    start_upto i s -> (forall k, s < k < i -> ~ start_upto i k /\ C k <> 0) ->
    Word a b -> s < b <= i -> (b <> i - 1 \/ ~ wstart (i - 1)) -> a = s /\ b = i \/ (a = i - 1 /\ b = i /\ s < i - 1).
  Proof.
    intros i s a b LN LI CI (WS & SL & _) NB (WA & LB & NK & EB) LS X.
    assert (A1 : a <= s \/ s < a) by lia. destruct A1 as [A1|A1].
    - assert (a = s). { destruct (Nat.eq_dec a s); [assumption|]. exfalso. destruct (NK s ltac:(lia)) as [QQ _]; now apply QQ. }
      subst a. destruct (Nat.eq_dec b i) as [->|NE]; [auto|]. exfalso.
      destruct (NB b ltac:(lia)) as [N1 N2]. destruct EB as [EB|[EB|EB]]; [lia| |contradiction].
      destruct (Nat.eq_dec b (i - 1)) as [->|NI]; [tauto|].
      apply N1. repeat split; try lia; try apply EB.
    - (* a start strictly after s, hence a = i-1 *)
      assert (a < i) by lia. destruct (NB a ltac:(lia)) as [N1 N2].
      right. destruct (Nat.eq_dec a (i - 1)) as [->|NI]; [lia|]. exfalso.
      apply N1. repeat split; try lia; try apply WA.
  Qed.

  Ltac inv_ := unfold winv; simpl.

  Lemma cstep_winv : forall i b st, nth_error name i = Some b -> winv i st ->
    exists st', cstep is_upper is_digit name st (i, Byte.to_N b) = Some st' /\ winv (S i) st'.
  Proof.
    intros i b [ws lc s pv lt mk] NB (M & I0 & IU & IC & IW & IL). simpl in *. subst mk.
    assert (LN : i < length name) by (apply nth_error_Some; congruence).
    pose proof (cls_nth i b NB) as CI.
    unfold cstep; simpl. rewrite us_code. destruct (byte_eqb_spec b US) as [->|NU].
    - (* underscore *)
      assert (WS : ~ wstart i) by (intros (_ & Q & _); congruence).
      assert (OLD : forall a b, Word a b -> ~ (a <= i /\ i < b)).
      { intros a b0 (WA & _ & NK & _) [Q1 Q2]. destruct (Nat.eq_dec a i) as [->|]; [contradiction|].
        destruct (NK i ltac:(lia)) as [_ Q]. congruence. }
      assert (G : forall ws', (forall x, In x ws -> In x ws') ->
                (0 < i -> C (i - 1) <> 0 -> 2 <= i - s -> In (slice name s i) ws') ->
                winv (S i) (CS ws' 0 (i + 1) (i + 1) lt false)).
      { intros ws' SUB NEW. inv_. rewrite Nat.sub_0_r.
        split; [reflexivity|]. split; [lia|]. split; [intros; lia|]. split; [intros; congruence|]. split; [|lia].
        - intros a b0 W A B0 LE.
          destruct (le_lt_dec b0 s) as [Q|Q]; [apply SUB, IW; assumption|].
          assert (b0 <= i).
          { destruct (le_lt_dec b0 i); [assumption|]. exfalso. apply (OLD a b0 W). destruct W as (? & ? & ?). lia. }
          destruct (Nat.eq_dec i 0) as [->|NZ]; [lia|].
          destruct (Nat.eq_dec (C (i - 1)) 0) as [Z|Z].
          { destruct (IU ltac:(lia) Z) as [_ ->]. lia. }
          destruct (IC ltac:(lia) Z) as (-> & -> & -> & SU & NK).
          destruct (word_from_start i s a b0 ltac:(lia) ltac:(lia) Z SU NK W ltac:(lia)) as [[-> ->]|(-> & -> & Q2)].
          + destruct (Nat.eq_dec b0 (i - 1)) as [->|]; [|auto]. right. intros (W1 & W2 & W3).
            destruct (NK (i - 1) ltac:(lia)) as [N1 _]. apply N1. split; [split; auto|]. split; [lia|].
            right. destruct W3 as [?|[?|[?|?]]]; [lia|tauto|tauto|]. exfalso.
            destruct H0 as (_ & _ & Q3). replace (i - 1 + 1) with i in Q3 by lia. congruence.
          + apply NEW; try lia. unfold TokeniserSpec.long_enough in LE; destruct LE as [LE|[LE|LE]]; [lia|lia|congruence].
          + exfalso. destruct W as (WA & _). destruct WA as (W1 & W2 & W3).
            destruct (NK (i - 1) ltac:(lia)) as [N1 _]. apply N1. split; [split; auto|]. split; [lia|].
            right. destruct W3 as [?|[?|[?|?]]]; [lia|tauto|tauto|]. exfalso.
            destruct H0 as (_ & _ & Q3). replace (i - 1 + 1) with i in Q3 by lia. congruence. }
      destruct (s <? lt) eqn:Q.
      + apply Nat.ltb_lt in Q.
        assert (lt < i) by lia.
        rewrite go_slice_ok by lia. eexists. split; [reflexivity|]. apply G.
        * intros x Ix. apply in_or_app. now left.
        * intros Li Ci _. destruct (IC Li Ci) as (_ & _ & E & _). apply in_or_app. right. left.
          rewrite E. do 2 f_equal. lia.
      + apply Nat.ltb_ge in Q. eexists. split; [reflexivity|]. apply G; [auto|].
        intros Li Ci L2. destruct (IC Li Ci) as (_ & _ & E & _). lia.
    - (* word character *)
      assert (NR : N.eqb (Byte.to_N b) RuneError = false).
      { apply N.eqb_neq. pose proof (Byte.to_N_bounded b). unfold RuneError. lia. }
      rewrite NR. rewrite <- CI.
      pose proof (class_range (Byte.to_N b)) as CR. rewrite <- CI in CR.
      destruct (Nat.eqb_spec lc 0) as [->|LC]; simpl.
      + (* first character of a name or after an underscore *)
        assert (E : s = i /\ (i = 0 \/ C (i - 1) = 0)).
        { destruct (Nat.eq_dec i 0) as [->|NZ]; [destruct (I0 eq_refl); auto|].
          destruct (Nat.eq_dec (C (i - 1)) 0) as [Z|Z]; [destruct (IU ltac:(lia) Z); auto|].
          destruct (IC ltac:(lia) Z) as (Q & _). congruence. }
        destruct E as [-> ST].
        assert (W : wstart i). { split; [exact LN|]. split; [lia|]. tauto. }
        eexists. split; [reflexivity|]. inv_. rewrite Nat.sub_0_r.
        split; [reflexivity|]. split; [lia|]. split; [intros; lia|]. split; [|split; [exact IW|lia]].
        intros _ _. split; [reflexivity|]. split; [lia|]. split; [lia|]. split; [|intros; lia].
        split; [exact W|]. split; [lia|]. tauto.
      + assert (E : 0 < i /\ C (i - 1) <> 0).
        { destruct (Nat.eq_dec i 0) as [->|NZ]; [destruct (I0 eq_refl); contradiction|].
          destruct (Nat.eq_dec (C (i - 1)) 0) as [Z|Z]; [destruct (IU ltac:(lia) Z); contradiction|]. split; [lia|assumption]. }
        destruct E as [Li Ci]. destruct (IC Li Ci) as (-> & -> & -> & SU & NK). clear I0 IU IC.
        pose proof SU as (SW & SL & _).
        destruct (Nat.eqb_spec (C i) (C (i - 1))) as [EC|EC]; simpl.
        { (* same class: the word goes on *)
          assert (NW1 : ~ wstart (i - 1) \/ s = i - 1 \/ start_upto i (i - 1)).
          { destruct (Nat.eq_dec s (i - 1)); [auto|]. left. intros (W1 & W2 & W3).
            destruct (NK (i - 1) ltac:(lia)) as [N1 _]. apply N1. split; [split; auto|]. split; [lia|].
            right. destruct W3 as [?|[?|[?|?]]]; [tauto|tauto|tauto|].
            exfalso. destruct H as (? & ? & Q3). replace (i - 1 + 1) with i in Q3 by lia. congruence. }
          assert (NWi : ~ start_upto (S i) i).
          { intros (_ & _ & [?|[?|[?|?]]]); [lia|lia|congruence|]. destruct H as [Q _]. congruence. }
          eexists. split; [reflexivity|]. inv_. rewrite Nat.sub_0_r.
          split; [reflexivity|]. split; [lia|]. split; [intros; lia|]. split; [|split; [exact IW|lia]].
          intros _ _. split; [reflexivity|]. split; [lia|]. split; [lia|]. split.
          { destruct SU as (? & ? & ?). split; [assumption|]. split; [lia|]. destruct H1 as [?|?]; [left; lia|tauto]. }
          intros k KR. split.
          - destruct (Nat.eq_dec k i) as [->|NEk]; [exact NWi|].
            intros (KW & KL & KC). destruct (Nat.eq_dec k (i - 1)) as [->|NE1].
            + destruct NW1 as [?|[?|?]]; [contradiction|lia|]. destruct (NK (i - 1) ltac:(lia)) as [QQ _]; now apply QQ.
            + destruct (NK k ltac:(lia)) as [QQ _]; apply QQ. split; [assumption|]. split; lia.
          - destruct (Nat.eq_dec k i) as [->|NEk]; [congruence|]. apply NK. lia. }
        destruct ((C (i - 1) =? 2) && (C i =? 1)) eqn:T.
        { (* upper case to lower case: the word started at the upper case letter *)
          apply andb_true_iff in T as [T1 T2]. apply Nat.eqb_eq in T1, T2.
          assert (W1 : s <> i - 1 -> wstart (i - 1)).
          { intros NE. destruct (NK (i - 1) ltac:(lia)) as [N1 _].
            assert (Z : i - 1 <> 0) by lia.
            assert (NZ : C (i - 1 - 1) <> 0).
            { intro Q. apply N1. split; [|split; [lia|auto]]. split; [lia|]; split; [lia|]; tauto. }
            assert (Q2 : C (i - 1 - 1) = 2).
            { destruct (Nat.eq_dec (C (i - 1 - 1)) 2); [assumption|]. exfalso. apply N1.
              assert (C (i - 1 - 1) <> C (i - 1)) by congruence.
              split; [|split; [lia|right; right; right; split; [assumption|lia]]].
              split; [lia|]; split; [lia|]; right. right. left. split; [assumption|lia]. }
            split; [lia|]; split; [lia|]; right. right. right. repeat split; try lia.
            replace (i - 1 + 1) with i by lia. assumption. }
          assert (SS : wstart (i - 1)). { destruct (Nat.eq_dec s (i - 1)) as [<-|]; auto. }
          assert (G : forall ws', (forall x, In x ws -> In x ws') ->
                    (s <> i - 1 -> 0 < s -> In (slice name s (i - 1)) ws') ->
                    winv (S i) (CS ws' (C i) (i - 1) i i false)).
          { intros ws' SUB NEW. inv_. rewrite Nat.sub_0_r.
            split; [reflexivity|]. split; [lia|]. split; [intros; lia|]. split; [|split; [|lia]].
            { intros _ _. split; [reflexivity|]. split; [lia|]. split; [lia|]. split.
              - split; [exact SS|]. split; lia.
              - intros k KR. assert (k = i) by lia. subst k. split; [|lia].
                intros (_ & _ & [?|[?|[?|?]]]); [lia|lia|congruence|]. tauto. }
            - intros a b0 W A B0 LE.
              destruct (le_lt_dec b0 s) as [Q|Q]; [apply SUB, IW; assumption|].
              destruct W as (WA & LB & NKW & EB).
              assert (a <= s \/ s < a) as [A1|A1] by lia.
              + assert (a = s). { destruct (Nat.eq_dec a s); [assumption|]. exfalso. destruct (NKW s ltac:(lia)) as [QQ _]; now apply QQ. }
                subst a. destruct (Nat.eq_dec b0 (i - 1)) as [->|NE]; [apply NEW; lia|]. exfalso.
                destruct (NK b0 ltac:(lia)) as [N1 N2]. destruct EB as [EB|[EB|EB]]; [lia| |contradiction].
                apply N1. split; [assumption|]. split; lia.
              + exfalso. destruct (NK a ltac:(lia)) as [N1 N2]. apply N1. split; [assumption|]. split; lia. }
          destruct (Nat.eqb_spec s (i - 1)) as [Q|Q]; simpl.
          - eexists. split; [reflexivity|]. apply G; [auto|]. intros; contradiction.
          - rewrite append_word_eq by lia. eexists. split; [reflexivity|]. apply G.
            + intros x Ix. destruct (s =? 0); [assumption|]. apply in_or_app. now left.
            + intros _ P. destruct (Nat.eqb_spec s 0) as [Z|_]; [lia|]. apply in_or_app. right. now left. }
        { (* any other change of class: a word starts here *)
          assert (NT : ~ (C (i - 1) = 2 /\ C i = 1)).
          { intros [T1 T2]. rewrite T1, T2 in T. discriminate. }
          assert (Wi : wstart i).
          { split; [lia|]; split; [lia|]; right. right. left. split; [congruence|assumption]. }
          assert (NW1 : s <> i - 1 -> ~ wstart (i - 1)).
          { intros NE (W1 & W2 & W3).
            destruct (NK (i - 1) ltac:(lia)) as [N1 _]. apply N1. split; [split; auto|]. split; [lia|].
            right. destruct W3 as [?|[?|[?|?]]]; [tauto|tauto|tauto|].
            exfalso. destruct H as (? & ? & Q3). replace (i - 1 + 1) with i in Q3 by lia. lia. }
          rewrite append_word_eq by lia. eexists. split; [reflexivity|].
          inv_. rewrite Nat.sub_0_r.
          split; [reflexivity|]. split; [lia|]. split; [intros; lia|]. split; [|split; [|lia]].
          { intros _ _. split; [reflexivity|]. split; [lia|]. split; [lia|]. split; [|intros; lia].
            split; [exact Wi|]. split; [lia|]. right. right. right. split; [congruence|assumption]. }
          - intros a b0 W A B0 LE.
            destruct (le_lt_dec b0 s) as [Q|Q].
            { destruct (s =? 0); [now apply IW|]. apply in_or_app. left. now apply IW. }
            destruct W as (WA & LB & NKW & EB).
            assert (a <= s \/ s < a) as [A1|A1] by lia.
            + assert (a = s). { destruct (Nat.eq_dec a s); [assumption|]. exfalso. destruct (NKW s ltac:(lia)) as [QQ _]; now apply QQ. }
              subst a. destruct (Nat.eqb_spec s 0) as [Z|_]; [lia|].
              destruct (Nat.eq_dec b0 i) as [->|NE]; [apply in_or_app; right; now left|]. exfalso.
              destruct (NK b0 ltac:(lia)) as [N1 N2]. destruct EB as [EB|[EB|EB]]; [lia| |contradiction].
              destruct (Nat.eq_dec b0 (i - 1)) as [->|]; [apply NW1; [lia|assumption]|].
              apply N1. split; [assumption|]. split; lia.
            + exfalso. assert (a < i) by lia. destruct (NK a ltac:(lia)) as [N1 N2].
              destruct (Nat.eq_dec a (i - 1)) as [->|]; [apply NW1; [lia|assumption]|].
              apply N1. split; [assumption|]. split; lia. }
  Qed.

  Lemma cloop_winv : forall s i st, skipn i name = s -> i + length s = length name -> winv i st ->
    exists st', cloop is_upper is_digit name st (idx_runes i s) = Some st' /\ winv (length name) st'.
  Proof.
    induction s as [|b s IH]; intros i st SK L W; cbn [idx_runes cloop length] in *.
    - replace (length name) with i by lia. eauto.
    - assert (NB : nth_error name i = Some b).
      { clear - SK. revert i SK. induction name as [|x n IH]; intros [|i] SK; simpl in *; try discriminate.
        - now injection SK as -> _.
        - now apply IH. }
      destruct (cstep_winv i b st NB W) as (st1 & E & W1). rewrite E.
      apply (IH (S i)); [|lia|assumption].
      clear - SK. revert i SK. induction name as [|x n IH]; intros [|i] SK; simpl in *; try discriminate.
      + now injection SK as _ ->.
      + now apply IH.
  Qed.

  Lemma casing_words : forall a b, Word a b -> 0 < a -> long_enough a b ->
    exists ws, casing is_upper is_digit name = Some ws /\ In (slice name a b) ws.
  Proof.
    intros a b W A LE. unfold casing, range_runes. rewrite runes_ascii by (auto; lia).
    destruct (cloop_winv name 0 cinit) as (st & E & W1); auto.
    { unfold winv; simpl. repeat split; try lia. intros a0 b0 (_ & Q & _). lia. }
    rewrite E. destruct W1 as (M & I0 & IU & IC & IW & IL).
    pose proof W as (WA & LB & NKW & EB).
    destruct (Nat.eq_dec (C (length name - 1)) 0) as [Z|Z].
    - destruct (IU ltac:(lia) Z) as [_ ES]. rewrite ES, Nat.ltb_irrefl.
      eexists. split; [reflexivity|]. apply IW; auto. lia.
    - destruct (IC ltac:(lia) Z) as (_ & EP & EL & SU & NK).
      pose proof SU as (SW & SL & _).
      assert (Q : start st <? length name = true) by (apply Nat.ltb_lt; lia). rewrite Q.
      rewrite append_word_eq by lia. eexists. split; [reflexivity|].
      destruct (le_lt_dec b (start st)) as [Q1|Q1].
      + destruct (start st =? 0); [now apply IW|]. apply in_or_app. left. now apply IW.
      + assert (NW1 : start st <> length name - 1 -> ~ wstart (length name - 1)).
        { intros NE (W1 & W2 & W3).
          destruct (NK (length name - 1) ltac:(lia)) as [N1 _]. apply N1. split; [split; auto|]. split; [lia|].
          right. destruct W3 as [?|[?|[?|?]]]; [tauto|tauto|tauto|].
          exfalso. destruct H as (? & ? & Q3). replace (length name - 1 + 1) with (length name) in Q3 by lia.
          rewrite cls_end in Q3 by lia. discriminate. }
        assert (a <= start st \/ start st < a) as [A1|A1] by lia.
        * assert (a = start st). { destruct (Nat.eq_dec a (start st)); [assumption|]. exfalso. destruct (NKW (start st) ltac:(lia)) as [QQ _]; now apply QQ. }
          subst a. destruct (Nat.eqb_spec (start st) 0) as [?|_]; [lia|]. apply in_or_app. right. left.
          f_equal. destruct (Nat.eq_dec b (length name)) as [->|NE]; [reflexivity|]. exfalso.
          destruct (NK b ltac:(lia)) as [N1 N2]. destruct EB as [EB|[EB|EB]]; [lia| |contradiction].
          destruct (Nat.eq_dec b (length name - 1)) as [->|]; [apply NW1; [lia|assumption]|].
          apply N1. split; [assumption|]. split; lia.
        * exfalso. destruct (NK a ltac:(lia)) as [N1 N2].
          destruct (Nat.eq_dec a (length name - 1)) as [->|]; [apply NW1; [lia|assumption]|].
          apply N1. split; [assumption|]. split; lia.
  Qed.
End Ascii.

Lemma ascii_well_encoded : forall name, ascii name -> well_encoded name.
Proof.
  intros name A i r H. unfold range_runes in H. rewrite runes_ascii in H by auto.
  assert (G : forall s i, ascii s -> forall j, In (j, r) (idx_runes i s) -> (r < 128)%N).
  { induction s as [|b s IH]; intros k As j; simpl; [tauto|]. intros [E|I].
    - injection E as _ <-. apply As. now left.
    - eapply IH; [|exact I]. intros x Ix. apply As. now right. }
  pose proof (G name 0 A i H). unfold RuneError. lia.
Qed.

Lemma words_are_tokens : forall u d name a b,
  ascii name -> word u d name a b -> a = 0 \/ long_enough u d name a b ->
  exists toks t, Tokenise u d name = Some toks /\ In t toks
    /\ has_prefix (slice name a b) t = true /\ (0 < a -> t = slice name a b).
Proof.
  intros u d name a b A W L.
  destruct (Tokenise_ok u d name (ascii_well_encoded name A)) as (toks & T & _).
  destruct (Nat.eq_dec a 0) as [->|N].
  - exists toks, name. destruct (Tokenise_sound _ _ _ _ T) as ((rest & ->) & _).
    repeat split; [assumption|now left| |lia].
    unfold slice. rewrite Nat.sub_0_r. simpl. apply has_prefix_spec. exists (skipn b name). now rewrite firstn_skipn.
  - destruct (casing_words u d name A a b W) as (ws & C & I); [lia|destruct L; [lia|assumption]|].
    exists toks, (slice name a b). repeat split; [assumption| |apply has_prefix_refl].
    apply (Tokenise_in _ _ _ _ _ T C). auto.
Qed.
