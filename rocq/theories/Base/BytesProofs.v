From Coq Require Import String.
From Coq Require Import List Bool NArith ZArith Lia.
From Coq.Strings Require Import Byte.
From Verif Require Import Base.Bytes.
Import ListNotations.
Open Scope list_scope.

Lemma byte_eqb_spec : forall a b, reflect (a = b) (byte_eqb a b).
Proof.
  intros a b. unfold byte_eqb.
  destruct (Byte.eqb a b) eqn:E; constructor.
  - now apply byte_dec_bl.
  - intro H. apply byte_dec_lb in H. congruence.
Qed.

Lemma byte_eqb_eq : forall a b, byte_eqb a b = true <-> a = b.
Proof. intros. destruct (byte_eqb_spec a b); intuition congruence. Qed.

Lemma byte_eqb_neq : forall a b, byte_eqb a b = false <-> a <> b.
Proof. intros. destruct (byte_eqb_spec a b); intuition congruence. Qed.

Lemma byte_eqb_refl : forall a, byte_eqb a a = true.
Proof. intros. now apply byte_eqb_eq. Qed.

Lemma byte_eqb_sym : forall a b, byte_eqb a b = byte_eqb b a.
Proof. intros. destruct (byte_eqb_spec a b), (byte_eqb_spec b a); congruence. Qed.

Lemma to_N_inj : forall a b, Byte.to_N a = Byte.to_N b -> a = b.
Proof.
  intros a b H. pose proof (Byte.of_to_N a) as Ha. rewrite H in Ha.
  rewrite Byte.of_to_N in Ha. congruence.
Qed.

Definition byte_eq_dec (a b : byte) : {a = b} + {a <> b} := Byte.byte_eq_dec a b.

Lemma str_eqb_spec : forall a b, reflect (a = b) (str_eqb a b).
Proof.
  induction a as [|x a IH]; destruct b as [|y b]; simpl; try (constructor; congruence).
  destruct (byte_eqb_spec x y); simpl.
  - destruct (IH b); constructor; congruence.
  - constructor; congruence.
Qed.
Lemma str_eqb_eq : forall a b, str_eqb a b = true <-> a = b.
Proof. intros. destruct (str_eqb_spec a b); intuition congruence. Qed.
Lemma str_eqb_neq : forall a b, str_eqb a b = false <-> a <> b.
Proof. intros. destruct (str_eqb_spec a b); intuition congruence. Qed.
Lemma str_eqb_refl : forall a, str_eqb a a = true.
Proof. intros. now apply str_eqb_eq. Qed.
Lemma str_eqb_sym : forall a b, str_eqb a b = str_eqb b a.
Proof. intros. destruct (str_eqb_spec a b), (str_eqb_spec b a); congruence. Qed.

Definition str_eq_dec (a b : gostr) : {a = b} + {a <> b} := list_eq_dec byte_eq_dec a b.

(** ** prefix *)
Lemma has_prefix_spec : forall p s, has_prefix p s = true <-> exists t, s = p ++ t.
Proof.
  induction p as [|x p IH]; simpl; intros s.
  - split; eauto.
  - destruct s as [|y s].
    + split; [discriminate | intros [t H]; discriminate].
    + rewrite andb_true_iff, byte_eqb_eq, IH. split.
      * intros [-> [t ->]]. now exists t.
      * intros [t H]. injection H as -> ->. split; eauto.
Qed.

Lemma has_prefix_app : forall p t, has_prefix p (p ++ t) = true.
Proof. intros. apply has_prefix_spec. eauto. Qed.

Lemma has_prefix_refl : forall p, has_prefix p p = true.
Proof. intros. apply has_prefix_spec. exists []. now rewrite app_nil_r. Qed.

Lemma has_prefix_trans : forall a b c, has_prefix a b = true -> has_prefix b c = true -> has_prefix a c = true.
Proof.
  intros a b c H1 H2. apply has_prefix_spec in H1 as [t ->]. apply has_prefix_spec in H2 as [u ->].
  rewrite <- app_assoc. apply has_prefix_app.
Qed.

Lemma has_prefix_app_l : forall p a b, has_prefix (p ++ a) (p ++ b) = has_prefix a b.
Proof. induction p; simpl; intros; [reflexivity|]. rewrite byte_eqb_refl. simpl. auto. Qed.

Lemma has_prefix_length : forall p s, has_prefix p s = true -> (length p <= length s)%nat.
Proof. intros p s H. apply has_prefix_spec in H as [t ->]. rewrite app_length. lia. Qed.

(** ** lexicographic order *)
Lemma byte_ltb_lt : forall a b, byte_ltb a b = true <-> (Byte.to_N a < Byte.to_N b)%N.
Proof. intros. unfold byte_ltb. apply N.ltb_lt. Qed.

Lemma str_ltb_irrefl : forall a, str_ltb a a = false.
Proof.
  induction a as [|x a IH]; simpl; [reflexivity|].
  destruct (byte_ltb x x) eqn:E; [apply byte_ltb_lt in E; lia|].
  rewrite byte_eqb_refl. exact IH.
Qed.

Lemma str_ltb_trans : forall a b c, str_ltb a b = true -> str_ltb b c = true -> str_ltb a c = true.
Proof.
  induction a as [|x a IH]; intros [|y b] [|z c]; simpl; try congruence.
  destruct (byte_ltb x y) eqn:E1; [apply byte_ltb_lt in E1|].
  - intros _. destruct (byte_ltb y z) eqn:E2; [apply byte_ltb_lt in E2|].
    + intros _. assert (E : byte_ltb x z = true) by (apply byte_ltb_lt; lia). now rewrite E.
    + destruct (byte_eqb_spec y z) as [->|]; [|congruence]. intros _.
      assert (E : byte_ltb x z = true) by (apply byte_ltb_lt; lia). now rewrite E.
  - destruct (byte_eqb_spec x y) as [->|]; [|congruence]. intros H1.
    destruct (byte_ltb y z) eqn:E2; [reflexivity|].
    destruct (byte_eqb_spec y z) as [->|]; [|congruence]. intros H2. eauto.
Qed.

Lemma str_ltb_total : forall a b, str_ltb a b = false -> str_ltb b a = false -> a = b.
Proof.
  induction a as [|x a IH]; intros [|y b]; simpl; try congruence.
  destruct (byte_ltb x y) eqn:E1; [congruence|].
  destruct (byte_ltb y x) eqn:E2; [intros; congruence|].
  assert (x = y).
  { apply to_N_inj. unfold byte_ltb in *. apply N.ltb_ge in E1. apply N.ltb_ge in E2. lia. }
  subst y. rewrite byte_eqb_refl. intros H1 H2. f_equal. now apply IH.
Qed.

Lemma str_ltb_asym : forall a b, str_ltb a b = true -> str_ltb b a = false.
Proof.
  intros a b H. destruct (str_ltb b a) eqn:E; [|reflexivity].
  pose proof (str_ltb_trans _ _ _ H E) as C. now rewrite str_ltb_irrefl in C.
Qed.

Lemma str_ltb_neq : forall a b, str_ltb a b = true -> a <> b.
Proof. intros a b H ->. now rewrite str_ltb_irrefl in H. Qed.

(** ** index, split, join *)
Lemma index_byte_none : forall s c, index_byte s c = None <-> ~ In c s.
Proof.
  induction s as [|x s IH]; simpl; intros c; [intuition|].
  destruct (byte_eqb_spec x c) as [->|N].
  - split; [discriminate|]. intros H. exfalso. apply H. now left.
  - specialize (IH c). destruct (index_byte s c).
    + split; [discriminate|]. intros H. exfalso.
      destruct IH as [_ IH]. assert (Some n = None) by (apply IH; intuition). discriminate.
    + split; [|reflexivity]. intros _ [E|I]; [congruence|]. now apply IH.
Qed.

Lemma index_byte_some : forall s c i, index_byte s c = Some i ->
  exists a b, s = a ++ c :: b /\ length a = i /\ ~ In c a.
Proof.
  induction s as [|x s IH]; simpl; intros c i H; [discriminate|].
  destruct (byte_eqb_spec x c) as [->|N].
  - injection H as <-. exists [], s. simpl. intuition.
  - destruct (index_byte s c) eqn:E; [|discriminate]. injection H as <-.
    destruct (IH _ _ E) as (a & b & -> & L & NI).
    exists (x :: a), b. simpl. repeat split; [congruence|]. intros [E'|I]; congruence.
Qed.

Lemma index_byte_app : forall a c b, ~ In c a -> index_byte (a ++ c :: b) c = Some (length a).
Proof.
  induction a as [|x a IH]; simpl; intros c b H.
  - now rewrite byte_eqb_refl.
  - destruct (byte_eqb_spec x c) as [->|N]; [intuition|]. rewrite IH; intuition.
Qed.

Lemma last_index_byte_none : forall s c, last_index_byte s c = None <-> ~ In c s.
Proof.
  induction s as [|x s IH]; simpl; intros c; [intuition|].
  specialize (IH c). destruct (last_index_byte s c).
  - split; [discriminate|]. intros H. destruct IH as [_ IH].
    assert (Some n = None) by (apply IH; intuition). discriminate.
  - destruct (byte_eqb_spec x c) as [->|N].
    + split; [discriminate|]. intros H. exfalso. apply H. now left.
    + split; [|reflexivity]. intros _ [E|I]; [congruence|]. now apply IH.
Qed.

Lemma last_index_byte_some : forall s c i, last_index_byte s c = Some i ->
  exists a b, s = a ++ c :: b /\ length a = i /\ ~ In c b.
Proof.
  induction s as [|x s IH]; simpl; intros c i H; [discriminate|].
  destruct (last_index_byte s c) eqn:E.
  - injection H as <-. destruct (IH _ _ E) as (a & b & -> & L & NI).
    exists (x :: a), b. simpl. repeat split; congruence.
  - destruct (byte_eqb_spec x c) as [->|N]; [|discriminate]. injection H as <-.
    exists [], s. simpl. repeat split. now apply last_index_byte_none.
Qed.

Lemma last_index_byte_app : forall a c b, ~ In c b -> last_index_byte (a ++ c :: b) c = Some (length a).
Proof.
  induction a as [|x a IH]; simpl; intros c b H.
  - destruct (last_index_byte b c) eqn:E; [|now rewrite byte_eqb_refl].
    assert (C : last_index_byte b c = None) by (now apply last_index_byte_none). congruence.
  - rewrite IH by assumption. reflexivity.
Qed.

Lemma split_byte_not_nil : forall s c, split_byte s c <> [].
Proof.
  intros [|x s] c; simpl; [discriminate|].
  destruct (byte_eqb x c); [discriminate|]. destruct (split_byte s c); discriminate.
Qed.

Lemma join_split : forall s c, join (split_byte s c) [c] = s.
Proof.
  induction s as [|x s IH]; simpl; intros c; [reflexivity|].
  destruct (byte_eqb_spec x c) as [->|N].
  - pose proof (split_byte_not_nil s c). specialize (IH c).
    destruct (split_byte s c); [congruence|]. cbn [join] in *. destruct l; simpl in *; congruence.
  - specialize (IH c). destruct (split_byte s c) as [|p ps] eqn:E; [now apply split_byte_not_nil in E|].
    destruct ps; simpl in *; congruence.
Qed.

Lemma split_byte_parts_free : forall s c p, In p (split_byte s c) -> ~ In c p.
Proof.
  induction s as [|x s IH]; simpl; intros c p.
  - intros [<-|[]]. intros [].
  - destruct (byte_eqb_spec x c) as [->|N].
    + intros [<-|H]; [intros []|]. now apply IH.
    + specialize (IH c). destruct (split_byte s c) as [|q qs].
      * intros [<-|[]]. intros [|[]]; congruence.
      * intros [<-|H].
        -- intros [->|I]; [congruence|]. apply (IH q); [now left|assumption].
        -- apply IH. now right.
Qed.

Lemma split_byte_app : forall a c b, ~ In c a -> split_byte (a ++ c :: b) c = a :: split_byte b c.
Proof.
  induction a as [|x a IH]; simpl; intros c b H.
  - now rewrite byte_eqb_refl.
  - destruct (byte_eqb_spec x c) as [->|N]; [intuition|]. rewrite IH by intuition. reflexivity.
Qed.

Lemma split_byte_none : forall a c, ~ In c a -> split_byte a c = [a].
Proof.
  induction a as [|x a IH]; simpl; intros c H; [reflexivity|].
  destruct (byte_eqb_spec x c) as [->|N]; [intuition|]. rewrite IH by intuition. reflexivity.
Qed.

Lemma split_join : forall ps c, ps <> [] -> (forall p, In p ps -> ~ In c p) ->
  split_byte (join ps [c]) c = ps.
Proof.
  induction ps as [|p ps IH]; intros c H F; [congruence|].
  destruct ps as [|q qs].
  - simpl. apply split_byte_none. apply F. now left.
  - cbn [join]. simpl app. rewrite split_byte_app by (apply F; now left).
    f_equal. apply IH; [discriminate|]. intros r Hr. apply F. now right.
Qed.

(** ** no-separator cancellation *)
Lemma sep_cancel : forall (c : byte) a b a' b',
  ~ In c a -> ~ In c a' -> a ++ c :: b = a' ++ c :: b' -> a = a' /\ b = b'.
Proof.
  induction a as [|x a IH]; intros b [|y a'] b' H H' E; simpl in *.
  - injection E as ->. auto.
  - injection E as -> E. exfalso. apply H'. now left.
  - injection E as -> E. exfalso. apply H. now left.
  - injection E as -> E. destruct (IH b a' b') as [-> ->]; intuition.
Qed.

Lemma sep_prefix_cancel : forall (c : byte) a b a' s,
  ~ In c a -> ~ In c a' -> has_prefix (a ++ c :: b) (a' ++ c :: s) = true ->
  a = a' /\ has_prefix b s = true.
Proof.
  intros c a b a' s H H' P. apply has_prefix_spec in P as [t E].
  rewrite <- app_assoc in E. simpl in E. symmetry in E.
  apply sep_cancel in E as [-> E]; auto. split; [reflexivity|].
  apply has_prefix_spec. eauto.
Qed.

Lemma trim_prefix_app : forall p t, trim_prefix (p ++ t) p = t.
Proof.
  intros. unfold trim_prefix. rewrite has_prefix_app.
  rewrite skipn_app, skipn_all, Nat.sub_diag. reflexivity.
Qed.

Lemma lower_ascii_length : forall s, length (lower_ascii s) = length s.
Proof. intros. apply map_length. Qed.

Lemma lower_byte_nul : forall b, lower_byte b = NUL -> b = NUL.
Proof. intros b. destruct b; vm_compute; congruence. Qed.

Lemma lower_byte_idem : forall b, lower_byte (lower_byte b) = lower_byte b.
Proof. intros b. destruct b; reflexivity. Qed.

Lemma lower_ascii_idem : forall s, lower_ascii (lower_ascii s) = lower_ascii s.
Proof. intros s. unfold lower_ascii. rewrite map_map. apply map_ext. apply lower_byte_idem. Qed.

Lemma lower_ascii_no_nul : forall s, ~ In NUL s -> ~ In NUL (lower_ascii s).
Proof.
  intros s H I. unfold lower_ascii in I. apply in_map_iff in I as (b & E & I).
  apply lower_byte_nul in E. congruence.
Qed.

Lemma skipn_skipn : forall {A} (l : list A) x y, skipn x (skipn y l) = skipn (x + y) l.
Proof.
  induction l as [|a l IH]; intros x y.
  - now rewrite !skipn_nil.
  - destruct y; [now rewrite Nat.add_0_r|]. rewrite <- plus_n_Sm. simpl. apply IH.
Qed.
