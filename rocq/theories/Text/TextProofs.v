(** Proofs about line tables, positions and edits. *)
From Coq Require Import List Bool NArith ZArith Lia Sorted.
From Coq.Strings Require Import Byte.
From Verif Require Import Base.Bytes Base.BytesProofs Base.Protocol Base.Utf8 Base.Utf8Proofs Base.SortSearch
  Words.TokeniserSpec Text.TextModel Text.TextSpec.
Import ListNotations.
Open Scope list_scope.
Open Scope Z_scope.

(** ** Decoding *)
Lemma decode_small : forall b s r w, decode_rune (b :: s) = (r, w) -> (r < 128)%N -> Byte.to_N b = r /\ w = 1%nat.
Proof.
  intros b s r w H R. unfold decode_rune in H. set (n := Byte.to_N b) in *.
  assert (RG : forall lo hi c, in_rng lo hi c = true -> (lo <= Byte.to_N c <= hi)%N).
  { intros lo hi c I. unfold in_rng in I. apply andb_true_iff in I as [I1 I2]. apply N.leb_le in I1. apply N.leb_le in I2. auto. }
  destruct (N.ltb_spec n 128) as [L|L]; [injection H as <- <-; auto|]. unfold RuneError in *.
  destruct (in_rng 194 223 b) eqn:E1.
  { apply RG in E1. fold n in E1. destruct s as [|b1 s]; [injection H as <- <-; lia|]. destruct (in_rng 128 191 b1) eqn:E2; [|injection H as <- <-; lia].
    apply RG in E2. injection H as <- <-. unfold cont in R. lia. }
  destruct (in_rng 224 239 b) eqn:E3.
  { apply RG in E3. fold n in E3. destruct s as [|b1 [|b2 s]]; try (injection H as <- <-; lia). destruct (_ && _)%bool eqn:E; [|injection H as <- <-; lia].
    apply andb_true_iff in E as [E4 E5]. apply RG in E4. apply RG in E5. injection H as <- <-. unfold cont in R.
    destruct (N.eqb_spec n 224); lia. }
  destruct (in_rng 240 244 b) eqn:E6.
  { apply RG in E6. fold n in E6. destruct s as [|b1 [|b2 [|b3 s]]]; try (injection H as <- <-; lia). destruct (_ && _)%bool eqn:E; [|injection H as <- <-; lia].
    apply andb_true_iff in E as [E E7]. apply andb_true_iff in E as [E4 E5]. apply RG in E4. apply RG in E5. apply RG in E7. injection H as <- <-. unfold cont in R.
    destruct (N.eqb_spec n 240); lia. }
  injection H as <- <-. lia.
Qed.

Lemma decode_app : forall b s t r w, decode_rune (b :: s) = (r, w) -> r <> RuneError -> decode_rune (b :: s ++ t) = (r, w).
Proof.
  intros b s t r w H R. unfold decode_rune in *. destruct (N.ltb _ _); [exact H|].
  destruct (in_rng 194 223 b); [destruct s as [|b1 s]; [injection H as <- <-; congruence|exact H]|].
  destruct (in_rng 224 239 b); [destruct s as [|b1 [|b2 s]]; try (injection H as <- <-; congruence); exact H|].
  destruct (in_rng 240 244 b); [destruct s as [|b1 [|b2 [|b3 s]]]; try (injection H as <- <-; congruence); exact H|].
  exact H.
Qed.

Lemma ascii_not_cont : forall lo hi c, (128 <= lo)%N -> ascii_byte c -> in_rng lo hi c = false.
Proof. intros lo hi c L A. destruct (in_rng lo hi c) eqn:E; [|reflexivity]. exfalso. exact (in_rng_high _ _ _ L E A). Qed.

Lemma decode_app_ascii : forall b s c t, ascii_byte c -> decode_rune (b :: s ++ c :: t) = decode_rune (b :: s).
Proof.
  intros b s c t A. unfold decode_rune. set (n := Byte.to_N b).
  assert (LO1 : (128 <= (if N.eqb n 224 then 160 else 128))%N) by (destruct (N.eqb n 224); lia).
  assert (LO2 : (128 <= (if N.eqb n 240 then 144 else 128))%N) by (destruct (N.eqb n 240); lia).
  destruct (N.ltb _ _); [reflexivity|].
  destruct (in_rng 194 223 b); [destruct s as [|b1 s]; [cbn [app]; rewrite ascii_not_cont by (lia || assumption)|]; reflexivity|].
  destruct (in_rng 224 239 b).
  { destruct s as [|b1 [|b2 s]]; cbn [app]; [|rewrite (ascii_not_cont 128 191 c), andb_false_r by (lia || assumption); reflexivity|reflexivity].
    destruct t; [reflexivity|]. rewrite (ascii_not_cont _ _ c) by assumption. reflexivity. }
  destruct (in_rng 240 244 b); [|reflexivity].
  destruct s as [|b1 [|b2 [|b3 s]]]; cbn [app].
  - destruct t as [|x [|y t]]; [reflexivity|reflexivity|]. rewrite (ascii_not_cont _ _ c) by assumption. reflexivity.
  - destruct t as [|x t]; [reflexivity|]. rewrite (ascii_not_cont 128 191 c), andb_false_r by (lia || assumption). reflexivity.
  - rewrite (ascii_not_cont 128 191 c), andb_false_r by (lia || assumption). reflexivity.
  - reflexivity.
Qed.

Lemma runes_ascii_split : forall a c t, ascii_byte c -> to_runes (a ++ c :: t) = to_runes a ++ to_runes (c :: t).
Proof.
  intros a. remember (length a) as n eqn:EN. revert a EN. induction n as [n IH] using lt_wf_ind. intros a -> c t A.
  destruct a as [|b a]; [reflexivity|]. cbn [app]. rewrite to_runes_cons, (to_runes_cons b a). rewrite decode_app_ascii by assumption.
  pose proof (rune_width b a) as W. destruct (decode_rune (b :: a)) as [r w]. cbn [fst snd] in *.
  change (b :: a ++ c :: t) with ((b :: a) ++ c :: t). rewrite skipn_app. replace (w - length (b :: a))%nat with 0%nat by lia. cbn [skipn app].
  f_equal. eapply IH; [|reflexivity|exact A]. rewrite skipn_length. cbn [length] in *. lia.
Qed.

Definition good (s : gostr) : Prop := ~ In RuneError (to_runes s).
Lemma well_encoded_good : forall s, well_encoded s <-> good s.
Proof.
  intros s. unfold well_encoded, good, to_runes. split.
  - intros H I. apply in_map_iff in I as ([i r] & E & I). cbn in E. exact (H i r I E).
  - intros H i r I E. apply H. apply in_map_iff. exists (i, r). auto.
Qed.

Lemma runes_good_split : forall a t, good a -> to_runes (a ++ t) = to_runes a ++ to_runes t.
Proof.
  intros a. remember (length a) as n eqn:EN. revert a EN. induction n as [n IH] using lt_wf_ind. intros a -> t G.
  destruct a as [|b a]; [reflexivity|]. cbn [app]. unfold good in G. rewrite to_runes_cons, (to_runes_cons b a) in *.
  destruct (decode_rune (b :: a)) as [r w] eqn:D. cbn [fst snd] in *.
  rewrite (decode_app b a t r w D) by (intros ->; apply G; left; reflexivity). cbn [fst snd].
  pose proof (rune_width b a) as W. rewrite D in W. cbn [snd] in W.
  change (b :: a ++ t) with ((b :: a) ++ t). rewrite skipn_app. replace (w - length (b :: a))%nat with 0%nat by lia. cbn [skipn app].
  f_equal. eapply IH; [|reflexivity|]. { rewrite skipn_length. cbn [length] in *. lia. }
  intros I. apply G. right. exact I.
Qed.

Lemma to_N_inj : forall a b, Byte.to_N a = Byte.to_N b -> a = b.
Proof. intros a b E. apply (f_equal Byte.of_N) in E. rewrite !Byte.of_to_N in E. congruence. Qed.

(** ** The line table in terms of bytes *)
Fixpoint starts (s : gostr) (n : Z) : list Z :=
  match s with
  | [] => []
  | b :: t => if byte_eqb b LF then (n + 1) :: starts t (n + 1) else starts t (n + 1)
  end.

Lemma starts_app : forall a b n, starts (a ++ b) n = starts a n ++ starts b (n + Z.of_nat (length a)).
Proof.
  induction a as [|x a IH]; intros b n; [cbn; now rewrite Z.add_0_r|].
  cbn [app starts]. rewrite IH. replace (n + 1 + Z.of_nat (length a)) with (n + Z.of_nat (length (x :: a))) by (cbn [length]; lia).
  destruct (byte_eqb x LF); reflexivity.
Qed.
Lemma starts_none : forall a n, ~ In LF a -> starts a n = [].
Proof.
  induction a as [|x a IH]; intros n N; [reflexivity|]. cbn. destruct (byte_eqb x LF) eqn:E.
  - apply byte_eqb_eq in E. subst. exfalso. apply N. left. reflexivity.
  - apply IH. intros I. apply N. right. exact I.
Qed.
Lemma starts_shift : forall a n m, starts a (n + m) = map (fun o => o + m) (starts a n).
Proof.
  induction a as [|x a IH]; intros n m; [reflexivity|]. cbn. replace (n + m + 1) with (n + 1 + m) by lia. rewrite IH.
  destruct (byte_eqb x LF); reflexivity.
Qed.
Lemma starts_length : forall a n m, length (starts a n) = length (starts a m).
Proof. intros a n m. replace m with (n + (m - n)) by lia. rewrite starts_shift, map_length. reflexivity. Qed.

Lemma lone_suffix : forall a b, no_lone_cr (a ++ b) -> no_lone_cr b.
Proof. intros a b H x y E. apply (H (a ++ x)). rewrite E, app_assoc. reflexivity. Qed.
Lemma lone_app : forall a b, no_lone_cr a -> no_lone_cr b -> no_lone_cr (a ++ b).
Proof.
  intros a b Ha Hb x y E. revert x y E Ha. induction a as [|c a IH]; intros x y E Ha; [eapply Hb; exact E|].
  destruct x as [|d x]; cbn in E; injection E as Ec E.
  - subst c. destruct (Ha [] a eq_refl) as [a' ->]. cbn in E. subst y. eauto.
  - apply (IH x y E). apply (lone_suffix [c] a). exact Ha.
Qed.
Lemma lone_prefix : forall a b, no_lone_cr (a ++ b) -> (forall x, a <> x ++ [CR]) -> no_lone_cr a.
Proof.
  intros a b H N x y E. destruct y as [|c y]; [exfalso; exact (N x E)|].
  destruct (H x (c :: y ++ b)) as [b' E']; [rewrite E, <- app_assoc; reflexivity|]. injection E' as -> _. eauto.
Qed.

Lemma rune_no_break : forall b t r w, decode_rune (b :: t) = (r, w) -> r <> 13%N -> r <> 10%N ->
  ~ In CR (firstn w (b :: t)) /\ ~ In LF (firstn w (b :: t)).
Proof.
  intros b t r w D NC NL.
  assert (A : forall c, ascii_byte c -> Byte.to_N c <> r -> ~ In c (firstn w (b :: t))).
  { intros c AC NE I. apply In_nth_error in I as [i I]. assert (L : (i < w)%nat).
    { assert (i < length (firstn w (b :: t)))%nat by (apply nth_error_Some; congruence). rewrite firstn_length in H. lia. }
    destruct i as [|i].
    - assert (b = c) by (destruct w; [lia|]; cbn in I; congruence). subst b. rewrite decode_ascii in D by exact AC. injection D as <- _. congruence.
    - destruct (rune_bytes_high b t (S i)) as (c' & E & H); [rewrite D; cbn; lia|].
      assert (E' : nth_error (firstn w (b :: t)) (S i) = nth_error (b :: t) (S i)).
      { clear - L. revert i L. generalize (b :: t). induction w as [|w IH]; intros l i L; [lia|]. destruct l as [|x l]; [reflexivity|].
        cbn. destruct w; [lia|]. destruct i; [destruct l; reflexivity|]. apply IH. lia. }
      rewrite E', E in I. injection I as ->. contradiction. }
  split; apply A; first [reflexivity|cbn; congruence].
Qed.

Lemma loop_starts : forall fuel text n off, (length text <= fuel)%nat -> no_lone_cr text ->
  fst (line_loop fuel text n off) = map (fun o => o + off) (starts text n).
Proof.
  induction fuel as [|fuel IH]; intros text n off L NL; [destruct text; [reflexivity|cbn in L; lia]|].
  destruct text as [|b t]; [reflexivity|]. cbn [line_loop]. destruct (decode_rune (b :: t)) as [r w] eqn:D.
  assert (W := rune_width b t). rewrite D in W. cbn [snd] in W.
  destruct (N.eqb_spec r 13) as [->|N13].
  - destruct (decode_small _ _ _ _ D) as [B ->]; [lia|]. cbn [skipn].
    assert (b = CR) by (apply to_N_inj; exact B). subst b.
    destruct (NL [] t eq_refl) as [t' ->]. rewrite decode_ascii by reflexivity. cbn [N.eqb Byte.to_N].
    change (N.eqb (Byte.to_N LF) 10) with true. cbv iota. cbn [Nat.add skipn].
    destruct (line_loop fuel t' (n + Z.of_nat 1 + Z.of_nat 1) off) as [l crlf] eqn:E. cbn [fst].
    cbn [starts]. change (byte_eqb CR LF) with false. rewrite byte_eqb_refl. cbn [map]. apply f_equal2; [lia|].
    specialize (IH t' (n + Z.of_nat 1 + Z.of_nat 1) off). rewrite E in IH. cbn [fst] in IH. rewrite IH; [reflexivity|cbn in L; lia|].
    apply (lone_suffix [CR; LF]). exact NL.
  - destruct (N.eqb_spec r 10) as [->|N10].
    + destruct (decode_small _ _ _ _ D) as [B ->]; [lia|]. cbn [skipn].
      assert (b = LF) by (apply to_N_inj; exact B). subst b.
      destruct (line_loop fuel t (n + Z.of_nat 1) off) as [l crlf] eqn:E. cbn [fst starts]. rewrite byte_eqb_refl. cbn [map]. apply f_equal2; [lia|].
      specialize (IH t (n + Z.of_nat 1) off). rewrite E in IH. cbn [fst] in IH. rewrite IH; [reflexivity|cbn in L; lia|].
      apply (lone_suffix [LF]). exact NL.
    + destruct (rune_no_break _ _ _ _ D N13 N10) as [_ NLF].
      rewrite IH; [|rewrite skipn_length; cbn [length] in *; lia|apply (lone_suffix (firstn w (b :: t))); rewrite firstn_skipn; exact NL].
      rewrite <- (firstn_skipn w (b :: t)) at 2. rewrite starts_app, (starts_none _ _ NLF), firstn_length_le by lia. reflexivity.
Qed.

Lemma SetText_lines : forall text, no_lone_cr text -> td_lines (SetText text) = 0 :: starts text 0.
Proof.
  intros text NL. unfold SetText, calculateLineOffsets. assert (H := loop_starts (length text) text 0 0 (le_n _) NL).
  destruct (line_loop (length text) text 0 0) as [l crlf]. cbn [fst] in H. cbn [td_lines]. f_equal. rewrite H.
  rewrite <- (starts_shift text 0 0). reflexivity.
Qed.
Lemma SetText_text : forall text, td_text (SetText text) = text.
Proof. intros text. unfold SetText. destruct (calculateLineOffsets text 0). reflexivity. Qed.

(** ** Lines *)
Lemma lines_concat : forall t ls, lines_of t ls -> concat ls = t.
Proof.
  induction 1 as [s H|s rest ls H L IH|s rest ls H L IH|s rest ls H N L IH]; cbn [concat].
  - now rewrite app_nil_r.
  - rewrite IH, <- app_assoc. reflexivity.
  - rewrite IH, <- app_assoc. reflexivity.
  - rewrite IH, <- app_assoc. reflexivity.
Qed.

Lemma lines_exist : forall t, exists ls, lines_of t ls.
Proof.
  intros t. remember (length t) as n eqn:EN. revert t EN. induction n as [n IH] using lt_wf_ind. intros t ->.
  assert (D : one_line t \/ exists a b, one_line a /\ (t = a ++ CR :: b \/ t = a ++ LF :: b)).
  { clear IH. induction t as [|c t IH]; [left; split; intros []|].
    destruct (byte_eqb c CR) eqn:E1; [apply byte_eqb_eq in E1; subst; right; exists [], t; split; [split; intros []|auto]|].
    destruct (byte_eqb c LF) eqn:E2; [apply byte_eqb_eq in E2; subst; right; exists [], t; split; [split; intros []|auto]|].
    apply byte_eqb_neq in E1. apply byte_eqb_neq in E2. destruct IH as [[H1 H2]|(a & b & [H1 H2] & E)].
    - left. split; intros [I|I]; congruence || contradiction.
    - right. exists (c :: a), b. split; [split; intros [I|I]; congruence || contradiction|]. destruct E as [-> | ->]; auto. }
  destruct D as [O|(a & b & O & [-> | ->])].
  - exists [t]. now constructor.
  - destruct b as [|c b].
    + destruct (IH (length (@nil byte))) with (t := @nil byte) as [ls L]; [rewrite app_length; cbn; lia|reflexivity|]. eexists. apply lines_cr; [exact O|intros r; discriminate|exact L].
    + destruct (byte_eqb c LF) eqn:E.
      * apply byte_eqb_eq in E. subst. destruct (IH (length b)) with (t := b) as [ls L]; [rewrite app_length; cbn; lia|reflexivity|].
        eexists. apply lines_crlf; [exact O|exact L].
      * apply byte_eqb_neq in E. destruct (IH (length (c :: b))) with (t := c :: b) as [ls L]; [rewrite app_length; cbn; lia|reflexivity|].
        eexists. apply lines_cr; [exact O|intros r H; congruence|exact L].
  - destruct (IH (length b)) with (t := b) as [ls L]; [rewrite app_length; cbn; lia|reflexivity|]. eexists. apply lines_lf; [exact O|exact L].
Qed.

Lemma no_lone_cons : forall s rest, no_lone_cr (s ++ CR :: rest) -> exists r, rest = LF :: r.
Proof. intros s rest H. exact (H s rest eq_refl). Qed.

Lemma lines_starts : forall t ls, lines_of t ls -> no_lone_cr t -> forall n,
  n :: starts t n = map (fun i => n + line_start ls i) (seq 0 (length ls)).
Proof.
  assert (STEP : forall s term ls rest n, one_line s -> starts (s ++ term) n = [n + Z.of_nat (length (s ++ term))] ->
     (forall m, m :: starts rest m = map (fun i => m + line_start ls i) (seq 0 (length ls))) ->
     n :: starts ((s ++ term) ++ rest) n = map (fun i => n + line_start ((s ++ term) :: ls) i) (seq 0 (length ((s ++ term) :: ls)))).
  { intros s term ls rest n O E IH. rewrite starts_app, E. cbn [app length seq map]. f_equal; [cbn; lia|].
    rewrite IH. rewrite <- seq_shift, map_map. apply map_ext. intros i. unfold line_start. cbn [firstn concat]. rewrite !app_length. lia. }
  induction 1 as [s H|s rest ls H L IH|s rest ls H L IH|s rest ls H NR L IH]; intros NL n.
  - rewrite starts_none by apply H. cbn. f_equal. lia.
  - change (s ++ LF :: rest) with (s ++ [LF] ++ rest) in *. rewrite app_assoc. apply STEP; [exact H| |].
    + rewrite starts_app, starts_none by apply H. cbn [app starts]. rewrite byte_eqb_refl, app_length. cbn [length]. f_equal. lia.
    + apply IH. rewrite app_assoc in NL. now apply lone_suffix in NL.
  - change (s ++ CR :: LF :: rest) with (s ++ [CR; LF] ++ rest) in *. rewrite app_assoc. apply STEP; [exact H| |].
    + rewrite starts_app, starts_none by apply H. cbn [app starts]. change (byte_eqb CR LF) with false. rewrite byte_eqb_refl, app_length. cbn [length]. f_equal. lia.
    + apply IH. rewrite app_assoc in NL. now apply lone_suffix in NL.
  - destruct (no_lone_cons s rest NL) as [r ->]. exfalso. exact (NR r eq_refl).
Qed.

(** ** Sorted tables, for every text *)
Lemma loop_sorted : forall fuel text n off, (length text <= fuel)%nat -> 0 <= n ->
  StronglySorted Z.le (fst (line_loop fuel text n off))
  /\ forall o, In o (fst (line_loop fuel text n off)) -> n + off <= o <= n + off + Z.of_nat (length text).
Proof.
  induction fuel as [|fuel IH]; intros text n off L N; [destruct text; [|cbn in L; lia]; split; [constructor|intros o []]|].
  destruct text as [|b t]; [split; [constructor|intros o []]|]. cbn [line_loop].
  destruct (decode_rune (b :: t)) as [r w] eqn:D. assert (W := rune_width b t). rewrite D in W. cbn [snd] in W.
  set (s := b :: t) in *.
  assert (CONS : forall x k m, n <= x -> x <= m -> m = n + Z.of_nat k -> (1 <= k <= length s)%nat ->
     StronglySorted Z.le (x + off :: fst (line_loop fuel (skipn k s) m off))
     /\ forall o, In o (x + off :: fst (line_loop fuel (skipn k s) m off)) -> n + off <= o <= n + off + Z.of_nat (length s)).
  { intros x k m Hx Hm -> K. destruct (IH (skipn k s) (n + Z.of_nat k) off) as [S B]; [rewrite skipn_length; lia|lia|].
    rewrite skipn_length in B. split.
    - constructor; [exact S|]. apply Forall_forall. intros o I. apply B in I. lia.
    - intros o [<-|I]; [lia|]. apply B in I. lia. }
  destruct (N.eqb r 13) eqn:R13.
  - assert (w = 1)%nat. { apply N.eqb_eq in R13. subst r. destruct (decode_small _ _ _ _ D) as [_ ->]; [lia|reflexivity]. } subst w.
    destruct (decode_rune (skipn 1 s)) as [r2 w2] eqn:D2. destruct (N.eqb r2 10) eqn:R10.
    + assert (W2 : w2 = 1%nat /\ (1 <= length t)%nat).
      { apply N.eqb_eq in R10. subst r2. cbn [skipn s] in D2. destruct t as [|c t']; [discriminate|]. destruct (decode_small _ _ _ _ D2) as [_ ->]; [lia|]. cbn. lia. }
      destruct W2 as [-> LT]. specialize (CONS (n + Z.of_nat 1 + Z.of_nat 1) (1 + 1)%nat (n + Z.of_nat 1 + Z.of_nat 1)).
      destruct (line_loop fuel (skipn (1 + 1) s) (n + Z.of_nat 1 + Z.of_nat 1) off) as [l c]. cbn [fst] in *. apply CONS; cbn [length s]; lia.
    + specialize (CONS n 1%nat (n + Z.of_nat 1)). destruct (line_loop fuel (skipn 1 s) (n + Z.of_nat 1) off) as [l c]. cbn [fst] in *. apply CONS; cbn [length s]; lia.
  - destruct (N.eqb r 10).
    + specialize (CONS (n + Z.of_nat w) w (n + Z.of_nat w)). destruct (line_loop fuel (skipn w s) (n + Z.of_nat w) off) as [l c]. cbn [fst] in *.
      replace (n + off + Z.of_nat w) with (n + Z.of_nat w + off) by lia. apply CONS; lia.
    + destruct (IH (skipn w s) (n + Z.of_nat w) off) as [S B]; [rewrite skipn_length; lia|lia|]. split; [exact S|].
      rewrite skipn_length in B. intros o I. apply B in I. lia.
Qed.

Lemma table_sorted : forall text, StronglySorted Z.le (td_lines (SetText text))
  /\ (forall o, In o (td_lines (SetText text)) -> 0 <= o <= Z.of_nat (length text))
  /\ exists l, td_lines (SetText text) = 0 :: l.
Proof.
  intros text. unfold SetText, calculateLineOffsets. destruct (loop_sorted (length text) text 0 0 (le_n _) (Z.le_refl 0)) as [S B].
  destruct (line_loop (length text) text 0 0) as [l c]. cbn [fst td_lines] in *. split; [|split; [|eauto]].
  - constructor; [exact S|]. apply Forall_forall. intros o I. apply B in I. lia.
  - intros o [<-|I]; [lia|]. apply B in I. lia.
Qed.

Lemma sorted_nth : forall l i j, StronglySorted Z.le l -> (i <= j)%nat -> (j < length l)%nat -> nth i l 0 <= nth j l 0.
Proof.
  induction l as [|x l IH]; intros i j S I J; [cbn in J; lia|]. inversion_clear S as [|? ? S' F]. destruct i as [|i], j as [|j]; cbn; [lia| |lia|apply IH; [assumption|lia|cbn in J; lia]].
  rewrite Forall_forall in F. apply F. apply nth_In. cbn in J. lia.
Qed.

(** the line of an offset is the last one that starts at or before it *)
Lemma lineAt_spec : forall text o, 0 <= o ->
  let d := SetText text in
  0 <= lineAt d o < Z.of_nat (length (td_lines d))
  /\ nth (Z.to_nat (lineAt d o)) (td_lines d) 0 <= o
  /\ forall j, (j < length (td_lines d))%nat -> lineAt d o < Z.of_nat j -> o < nth j (td_lines d) 0.
Proof.
  intros text o O d. destruct (table_sorted text) as (S & B & l & HD). fold d in S, B, HD. unfold lineAt.
  set (f := fun i => o <? nth i (td_lines d) 0).
  destruct (sort_search_spec (length (td_lines d)) f) as (LE & P & Q).
  { intros a b AB BL FA. unfold f in *. apply Z.ltb_lt in FA. apply Z.ltb_lt. assert (H := sorted_nth _ a b S AB BL). lia. }
  set (k := sort_search (length (td_lines d)) f) in *.
  assert (K : (1 <= k)%nat).
  { destruct k as [|k]; [|lia]. exfalso. assert (0 < length (td_lines d))%nat by (rewrite HD; cbn; lia). specialize (Q H). unfold f in Q. rewrite HD in Q. cbn in Q. lia. }
  split; [lia|]. replace (Z.to_nat (Z.of_nat k - 1)) with (k - 1)%nat by lia. split.
  - specialize (P (k - 1)%nat ltac:(lia)). unfold f in P. apply Z.ltb_ge in P. exact P.
  - intros j J GT. assert (k <= j)%nat by lia. destruct (le_lt_dec (length (td_lines d)) k); [lia|]. specialize (Q ltac:(assumption)). unfold f in Q. apply Z.ltb_lt in Q.
    assert (H' := sorted_nth _ k j S H J). lia.
Qed.

Lemma positionAt_some : forall text o, 0 <= o -> positionAt (SetText text) o =
  Some (Pos (lineAt (SetText text) o) (o - nth (Z.to_nat (lineAt (SetText text) o)) (td_lines (SetText text)) 0)).
Proof.
  intros text o O. destruct (lineAt_spec text o O) as (B & _). unfold positionAt. destruct (Z.ltb_spec (lineAt (SetText text) o) 0); [lia|reflexivity].
Qed.

Lemma offsetAtLine_nth : forall d i, (i < length (td_lines d))%nat -> (exists l, td_lines d = 0 :: l) ->
  offsetAtLine d (Z.of_nat i) = nth i (td_lines d) 0.
Proof.
  intros d i I (l & HD). unfold offsetAtLine. destruct (Z.leb_spec (Z.of_nat i) 0) as [LE|GT]; cbn [orb].
  - assert (i = 0)%nat by lia. subst. rewrite HD. reflexivity.
  - destruct (Z.ltb_spec (Z.of_nat (length (td_lines d))) 1); [lia|]. destruct (Z.ltb_spec (Z.of_nat (length (td_lines d)) - 1) (Z.of_nat i)); [lia|]. now rewrite Nat2Z.id.
Qed.

Lemma offsetAtLine_bounds : forall d line, (forall o, In o (td_lines d) -> 0 <= o <= Z.of_nat (length (td_text d))) ->
  0 <= offsetAtLine d line <= Z.of_nat (length (td_text d)).
Proof.
  intros d line B. unfold offsetAtLine. destruct (Z.leb_spec line 0) as [LE|GT]; cbn [orb]; [lia|].
  destruct (Z.ltb_spec (Z.of_nat (length (td_lines d))) 1); [lia|].
  destruct (Z.ltb_spec (Z.of_nat (length (td_lines d)) - 1) line); apply B; apply nth_In; lia.
Qed.

Lemma rune_steps_bounds : forall n text o, 0 <= o <= Z.of_nat (length text) ->
  exists o', rune_steps n text o = Some o' /\ o <= o' <= Z.of_nat (length text).
Proof.
  induction n as [|n IH]; intros text o B; [exists o; split; [reflexivity|lia]|]. cbn [rune_steps].
  destruct (Z.ltb_spec o 0); [lia|]. destruct (Z.ltb_spec (Z.of_nat (length text)) o); [lia|]. cbn [orb].
  assert (W : (snd (decode_rune (skipn (Z.to_nat o) text)) <= length (skipn (Z.to_nat o) text))%nat).
  { destruct (skipn (Z.to_nat o) text) as [|b t]; [cbn; lia|]. apply rune_width. }
  rewrite skipn_length in W. destruct (IH text (o + Z.of_nat (snd (decode_rune (skipn (Z.to_nat o) text))))) as (o' & E & B'); [lia|].
  exists o'. split; [exact E|lia].
Qed.

Lemma offset_in_document : forall d p, (forall o, In o (td_lines d) -> 0 <= o <= Z.of_nat (length (td_text d))) ->
  exists o, OffsetAtPosition d p = Some o /\ 0 <= o <= Z.of_nat (length (td_text d)).
Proof.
  intros d p B. unfold OffsetAtPosition.
  destruct (rune_steps_bounds (Z.to_nat (p_char p)) (td_text d) (offsetAtLine d (p_line p)) (offsetAtLine_bounds d (p_line p) B)) as (o & E & BO).
  assert (B0 := offsetAtLine_bounds d (p_line p) B). rewrite E.
  destruct (Z.ltb_spec o (Z.of_nat (length (td_text d)))).
  - destruct (Z.ltb_spec o 0); [lia|]. exists o. split; [reflexivity|lia].
  - destruct (Z.ltb_spec (Z.of_nat (length (td_text d))) 0); [lia|]. eexists. split; [reflexivity|lia].
Qed.

(** moving over well-encoded text *)
Lemma rune_steps_over : forall mid pre post, good mid ->
  rune_steps (length (to_runes mid)) (pre ++ mid ++ post) (Z.of_nat (length pre)) = Some (Z.of_nat (length pre + length mid)).
Proof.
  intros mid. remember (length mid) as n eqn:EN. revert mid EN. induction n as [n IH] using lt_wf_ind. intros mid -> pre post G.
  destruct mid as [|b m]; [cbn; f_equal; lia|]. unfold good in G. rewrite to_runes_cons in *. cbn [length rune_steps].
  destruct (Z.ltb_spec (Z.of_nat (length pre)) 0); [lia|]. rewrite !app_length.
  destruct (Z.ltb_spec (Z.of_nat (length pre + (length (b :: m) + length post))) (Z.of_nat (length pre))); [lia|]. cbn [orb].
  rewrite Nat2Z.id, skipn_app, skipn_all, Nat.sub_diag. cbn [app skipn].
  destruct (decode_rune (b :: m)) as [r w] eqn:D. cbn [fst snd] in *.
  rewrite (decode_app b m post r w D) by (intros ->; apply G; left; reflexivity). cbn [snd].
  assert (W := rune_width b m). rewrite D in W. cbn [snd] in W.
  specialize (IH (length (skipn w (b :: m)))) with (mid := skipn w (b :: m)) (pre := pre ++ firstn w (b :: m)) (post := post).
  rewrite app_length, firstn_length_le in IH by lia. rewrite skipn_length in IH.
  replace ((pre ++ firstn w (b :: m)) ++ skipn w (b :: m) ++ post) with (pre ++ (b :: m) ++ post) in IH
    by (rewrite <- !app_assoc, (app_assoc (firstn w (b :: m))), firstn_skipn; reflexivity).
  replace (Z.of_nat (length pre) + Z.of_nat w) with (Z.of_nat (length pre + w)) by lia.
  change (pre ++ b :: m ++ post) with (pre ++ (b :: m) ++ post).
  rewrite IH; [f_equal; cbn [length] in *; lia|cbn [length] in *; lia|reflexivity|]. intros I. apply G. right. exact I.
Qed.

Lemma ascii_good : forall s, ascii s -> good s /\ length (to_runes s) = length s.
Proof.
  induction s as [|b s IH]; intros A; [split; [intros []|reflexivity]|]. assert (AB : ascii_byte b) by (apply A; left; reflexivity).
  destruct IH as [G L]; [intros c I; apply A; right; exact I|]. unfold good. rewrite to_runes_ascii_cons by exact AB. split.
  - intros [E|I]; [|exact (G I)]. unfold ascii_byte in AB. unfold RuneError in E. lia.
  - cbn. now rewrite L.
Qed.

(** ** Edits *)
Lemma utf16_basic : forall s, basic s -> utf16_len s = Z.of_nat (length (to_runes s)).
Proof.
  intros s H. unfold utf16_len, basic in *. induction (to_runes s) as [|r l IH]; [reflexivity|]. cbn [fold_right length].
  assert (R : (r < 65536)%N) by (apply H; left; reflexivity). apply N.ltb_lt in R. rewrite R, IH by (intros x I; apply H; right; exact I). lia.
Qed.

Lemma lines_before : forall before t l after, lines_of t (before ++ l :: after) -> no_lone_cr t ->
  (forall n, length (starts (concat before) n) = length before) /\ (concat before = [] \/ exists x, concat before = x ++ [LF]).
Proof.
  induction before as [|x before IH]; intros t l after L NL; [cbn; auto|]. cbn [app] in L.
  assert (STEP : forall s term rest, x = s ++ term -> lines_of rest (before ++ l :: after) -> no_lone_cr rest -> one_line s ->
            (forall n, length (starts (s ++ term) n) = 1%nat) -> (exists y, s ++ term = y ++ [LF]) ->
            (forall n, length (starts (concat (x :: before)) n) = length (x :: before)) /\ (concat (x :: before) = [] \/ exists y, concat (x :: before) = y ++ [LF])).
  { intros s term rest -> L' NL' O E (y & EY). destruct (IH rest l after L' NL') as [A B]. cbn [concat]. split.
    - intros n. rewrite starts_app, app_length, E, A. reflexivity.
    - right. destruct B as [B|(z & B)]; [exists y; rewrite B, app_nil_r; exact EY|]. exists ((s ++ term) ++ z). rewrite B. now rewrite !app_assoc. }
  inversion L as [s O E1 E2|s rest ls O L' E1 E2|s rest ls O L' E1 E2|s rest ls O NR L' E1 E2]; subst.
  - destruct before; discriminate.
  - eapply (STEP s [LF] rest); auto.
    + apply (lone_suffix (s ++ [LF])). rewrite <- app_assoc. exact NL.
    + intros n. rewrite starts_app, starts_none by apply O. cbn [app starts]. rewrite byte_eqb_refl. reflexivity.
    + exists s. reflexivity.
  - eapply (STEP s [CR; LF] rest); auto.
    + apply (lone_suffix (s ++ [CR; LF])). rewrite <- app_assoc. exact NL.
    + intros n. rewrite starts_app, starts_none by apply O. cbn [app starts]. change (byte_eqb CR LF) with false. rewrite byte_eqb_refl. reflexivity.
    + exists (s ++ [CR]). rewrite <- app_assoc. reflexivity.
  - destruct (no_lone_cons s rest NL) as [r ->]. exfalso. exact (NR r eq_refl).
Qed.

(** what a position gives us: a prefix of the text *)
Lemma at_position_prefix : forall text p o, at_position text p o -> plain_text text ->
  exists a rest, text = a ++ rest /\ o = Z.of_nat (length a) /\ good a /\ no_lone_cr a
    /\ 0 <= p_line p /\ (forall n, length (starts a n) = Z.to_nat (p_line p))
    /\ OffsetAtPosition (SetText text) p = Some o.
Proof.
  intros text p o (before & mid & rest & after & L & EL & OM & WE & U & EO) (NL & WT & BT).
  assert (C := lines_concat _ _ L). rewrite concat_app in C. cbn [concat] in C.
  destruct (lines_before _ _ _ _ L NL) as [SB EB]. apply well_encoded_good in WE. apply well_encoded_good in WT.
  set (pre := concat before) in *. set (post := rest ++ concat after).
  assert (TX : text = pre ++ mid ++ post) by (unfold post; rewrite <- C, <- app_assoc; reflexivity).
  assert (RS : to_runes text = to_runes pre ++ to_runes mid ++ to_runes post).
  { rewrite TX. rewrite <- (runes_good_split mid post WE). destruct EB as [EB|(x & EB)]; rewrite EB; [reflexivity|].
    rewrite <- app_assoc. cbn [app]. rewrite runes_ascii_split by reflexivity. rewrite (runes_ascii_split x LF []) by reflexivity.
    rewrite !(to_runes_ascii_cons LF) by reflexivity. cbn [app]. rewrite <- app_assoc. reflexivity. }
  assert (GP : good pre) by (intros I; apply WT; rewrite RS; apply in_or_app; auto).
  exists (pre ++ mid), post. rewrite <- app_assoc. split; [exact TX|]. split; [rewrite app_length; exact EO|].
  split. { unfold good. rewrite runes_good_split by exact GP. intros I. apply in_app_or in I as [I|I]; [exact (GP I)|exact (WE I)]. }
  split. { rewrite TX, app_assoc in NL. apply (lone_prefix _ _ NL). intros x E. destruct mid as [|c mid'] using rev_ind.
           - rewrite app_nil_r in E. destruct EB as [EB|(y & EB)]; rewrite EB in E; [destruct x; discriminate|]. apply app_inj_tail in E as [_ E]. discriminate.
           - rewrite app_assoc in E. apply app_inj_tail in E as [_ ->]. apply (proj1 OM). apply in_or_app. right. left. reflexivity. }
  split; [lia|]. split.
  { intros n. rewrite starts_app, (starts_none mid), app_nil_r, SB by apply OM. rewrite <- EL. now rewrite Nat2Z.id. }
  unfold OffsetAtPosition. rewrite SetText_text. rewrite <- EL, offsetAtLine_nth.
  - assert (NS : nth (length before) (td_lines (SetText text)) 0 = Z.of_nat (length pre)).
    { rewrite SetText_lines by exact NL. rewrite (lines_starts _ _ L NL 0).
      rewrite (nth_indep _ 0 (0 + line_start (before ++ (mid ++ rest) :: after) 0)) by (rewrite map_length, seq_length, app_length; cbn; lia).
      rewrite (map_nth (fun i => 0 + line_start (before ++ (mid ++ rest) :: after) i)), seq_nth by (rewrite app_length; cbn; lia).
      unfold line_start. rewrite Nat.add_0_l, firstn_app, Nat.sub_diag, firstn_all, app_nil_r. reflexivity. }
    rewrite NS.
    assert (BM : basic mid) by (intros r I; apply BT; rewrite RS; apply in_or_app; right; apply in_or_app; auto).
    rewrite <- U, (utf16_basic mid BM), Nat2Z.id, TX, rune_steps_over by exact WE.
    rewrite EO. rewrite !app_length. destruct (Z.ltb_spec (Z.of_nat (length pre + length mid)) (Z.of_nat (length pre + (length mid + length post)))).
    + destruct (Z.ltb_spec (Z.of_nat (length pre + length mid)) 0); [lia|reflexivity].
    + destruct (Z.ltb_spec (Z.of_nat (length pre + (length mid + length post))) 0); [lia|]. f_equal. lia.
  - rewrite SetText_lines by exact NL. rewrite (lines_starts _ _ L NL 0), map_length, seq_length, app_length. cbn. lia.
  - apply table_sorted.
Qed.

Lemma edit_correct : forall t c t', edit t c t' -> plain_text t -> plain_text (ch_text c) -> forall d,
  td_text d = t -> td_lines d = td_lines (SetText t) ->
  plain_text t' /\ exists d', applyChange d c = Some d' /\ td_text d' = t' /\ td_lines d' = td_lines (SetText t').
Proof.
  intros t c t' E PT PN d DT DL. destruct E as [text new|a b c s e new PS PE].
  - cbn [ch_text] in PN. split; [exact PN|]. exists (SetText new). split; [reflexivity|]. split; [apply SetText_text|reflexivity].
  - cbn [ch_text] in PN. set (t := a ++ b ++ c) in *.
    destruct (at_position_prefix _ _ _ PS PT) as (a1 & r1 & E1 & O1 & G1 & NL1 & L1 & S1 & OF1).
    destruct (at_position_prefix _ _ _ PE PT) as (a2 & r2 & E2 & O2 & G2 & NL2 & L2 & S2 & OF2).
    assert (a1 = a /\ r1 = b ++ c) as [-> ->].
    { unfold t in E1. assert (length a = length a1) by lia. clear - E1 H. revert a1 E1 H. induction a as [|x a IH]; intros [|y a1] E H; try discriminate; [auto|].
      cbn in E. injection E as -> E. destruct (IH a1 E) as [-> ->]; [cbn in H; lia|auto]. }
    assert (a2 = a ++ b /\ r2 = c) as [-> ->].
    { unfold t in E2. rewrite app_assoc in E2. assert (length (a ++ b) = length a2) by (rewrite app_length; lia). clear - E2 H.
      revert a2 E2 H. generalize (a ++ b). intros l. induction l as [|x l IH]; intros [|y a2] E H; try discriminate; [auto|].
      cbn in E. injection E as -> E. destruct (IH a2 E) as [-> ->]; [cbn in H; lia|auto]. }
    destruct PT as (NL & WT & BT). destruct PN as (NN & WN & BN). apply well_encoded_good in WT. apply well_encoded_good in WN.
    assert (RA : to_runes t = to_runes a ++ to_runes (b ++ c)) by (apply runes_good_split; exact G1).
    assert (RC : to_runes t = to_runes (a ++ b) ++ to_runes c) by (unfold t; rewrite app_assoc; apply runes_good_split; exact G2).
    assert (GC : good c) by (intros I; apply WT; rewrite RC; apply in_or_app; auto).
    assert (NC : no_lone_cr c) by (apply (lone_suffix (a ++ b)); rewrite <- app_assoc; exact NL).
    assert (RT : to_runes (a ++ new ++ c) = to_runes a ++ to_runes new ++ to_runes c) by (rewrite !runes_good_split by assumption; reflexivity).
    assert (NLT : no_lone_cr (a ++ new ++ c)) by (apply lone_app; [exact NL1|apply lone_app; assumption]).
    split.
    { split; [exact NLT|]. split.
      - apply well_encoded_good. unfold good. rewrite RT. intros I. apply in_app_or in I as [I|I]; [exact (G1 I)|]. apply in_app_or in I as [I|I]; [exact (WN I)|exact (GC I)].
      - intros r I. rewrite RT in I. apply in_app_or in I as [I|I]; [apply BT; rewrite RA; apply in_or_app; auto|].
        apply in_app_or in I as [I|I]; [apply BN; exact I|apply BT; rewrite RC; apply in_or_app; auto]. }
    unfold applyChange. cbn [ch_range ch_text r_start r_end].
    assert (OF : forall p, OffsetAtPosition d p = OffsetAtPosition (SetText t) p).
    { intros p. unfold OffsetAtPosition, offsetAtLine. rewrite DL, DT, SetText_text. reflexivity. }
    rewrite !OF, OF1, OF2, DL, DT. rewrite SetText_lines by exact NL.
    assert (ST : starts t 0 = starts a 0 ++ starts (b ++ c) (Z.of_nat (length a))) by (unfold t; rewrite starts_app; f_equal).
    assert (ST2 : starts t 0 = starts (a ++ b) 0 ++ starts c (Z.of_nat (length (a ++ b)))) by (unfold t; rewrite app_assoc, starts_app; f_equal).
    assert (LEN : (length (0%Z :: starts t 0%Z) = S (Z.to_nat (p_line s)) + length (starts (b ++ c) (Z.of_nat (length a))))%nat) by (cbn [length]; rewrite ST, app_length, S1; reflexivity).
    assert (LEN2 : (length (0%Z :: starts t 0%Z) = S (Z.to_nat (p_line e)) + length (starts c (Z.of_nat (length (a ++ b)))))%nat) by (cbn [length]; rewrite ST2, app_length, S2; reflexivity).
    destruct (Z.ltb_spec (Z.of_nat (length (0 :: starts t 0))) (p_line s + 1)); [lia|].
    destruct (Z.ltb_spec (p_line s + 1) 0); [lia|].
    assert (CO : calculateLineOffsets new (Z.of_nat (length a)) = (0 :: map (fun o => o + Z.of_nat (length a)) (starts new 0), snd (calculateLineOffsets new (Z.of_nat (length a))))).
    { unfold calculateLineOffsets. assert (H1 := loop_starts (length new) new 0 (Z.of_nat (length a)) (le_n _) NN).
      destruct (line_loop (length new) new 0 (Z.of_nat (length a))) as [l cr]. cbn [fst snd] in *. now rewrite H1. }
    rewrite CO. cbn [tl].
    assert (F1 : firstn (Z.to_nat (p_line s + 1)) (0 :: starts t 0) = 0 :: starts a 0).
    { replace (Z.to_nat (p_line s + 1)) with (S (Z.to_nat (p_line s))) by lia. cbn [firstn]. f_equal. rewrite ST, firstn_app, <- (S1 0), Nat.sub_diag, firstn_all. cbn [firstn]. apply app_nil_r. }
    assert (TXT : firstn (Z.to_nat (Z.of_nat (length a))) t ++ new ++ skipn (Z.to_nat (Z.of_nat (length a + length b))) t = a ++ new ++ c).
    { rewrite !Nat2Z.id. unfold t. rewrite firstn_app, Nat.sub_diag, firstn_all, app_nil_r. f_equal. f_equal.
      rewrite app_assoc, skipn_app, app_length, skipn_all2, Nat.sub_diag by (rewrite app_length; lia). reflexivity. }
    assert (TAB : td_lines (SetText (a ++ new ++ c)) = (0 :: starts a 0) ++ map (fun o => o + Z.of_nat (length a)) (starts new 0) ++ starts c (Z.of_nat (length a + length new))).
    { rewrite SetText_lines by exact NLT. rewrite !starts_app. cbn [app]. f_equal. f_equal. rewrite Z.add_0_l. f_equal.
      - change (Z.of_nat (length a)) with (0 + Z.of_nat (length a)) at 1. apply starts_shift.
      - f_equal. lia. }
    rewrite F1. destruct (Z.ltb_spec (p_line e + 1) (Z.of_nat (length (0 :: starts t 0)))).
    + destruct (Z.ltb_spec (p_line e + 1) 0); [lia|]. eexists. split; [reflexivity|]. cbn [td_text td_lines]. split; [exact TXT|].
      rewrite TAB, <- app_assoc. f_equal. f_equal.
      replace (Z.to_nat (p_line e + 1)) with (S (Z.to_nat (p_line e))) by lia. cbn [skipn]. rewrite ST2, skipn_app, <- (S2 0), Nat.sub_diag, skipn_all. cbn [app skipn].
      rewrite app_length, <- starts_shift. f_equal. lia.
    + eexists. split; [reflexivity|]. cbn [td_text td_lines]. split; [exact TXT|]. rewrite TAB. f_equal.
      assert (Z0 : starts c (Z.of_nat (length a + length new)) = []).
      { apply length_zero_iff_nil. rewrite (starts_length c _ (Z.of_nat (length (a ++ b)))). lia. }
      rewrite Z0, app_nil_r. reflexivity.
Qed.

Lemma edits_correct : forall t cs t', edits t cs t' -> plain_text t -> (forall c, In c cs -> plain_text (ch_text c)) -> forall d,
  td_text d = t -> td_lines d = td_lines (SetText t) ->
  plain_text t' /\ exists d', ApplyChanges d cs = Some d' /\ td_text d' = t' /\ td_lines d' = td_lines (SetText t').
Proof.
  induction 1 as [t|t t' t'' c cs E ES IH]; intros PT PC d DT DL; [split; [exact PT|]; exists d; auto|].
  destruct (edit_correct _ _ _ E PT (PC c (or_introl eq_refl)) d DT DL) as (PT' & d' & AC & DT' & DL').
  destruct (IH PT' (fun c' I => PC c' (or_intror I)) d' DT' DL') as (PT'' & d'' & AC' & DT'' & DL'').
  split; [exact PT''|]. exists d''. cbn [ApplyChanges]. rewrite AC. auto.
Qed.

Lemma line_shape : forall bef t l aft, lines_of t (bef ++ l :: aft) -> no_lone_cr t ->
  (aft = [] /\ one_line l) \/ (aft <> [] /\ exists s, one_line s /\ (l = s ++ [LF] \/ l = s ++ [CR; LF])).
Proof.
  assert (NE : forall t, ~ lines_of t []) by (intros t H; inversion H).
  induction bef as [|x bef IH]; intros t l aft L NL; cbn [app] in L;
    inversion L as [s O E1 E2|s rest ls O L' E1 E2|s rest ls O L' E1 E2|s rest ls O NR L' E1 E2]; subst.
  - left. auto.
  - right. split; [intros ->; exact (NE _ L')|eauto].
  - right. split; [intros ->; exact (NE _ L')|eauto].
  - destruct (no_lone_cons s rest NL) as [r ->]. exfalso. exact (NR r eq_refl).
  - destruct bef; discriminate.
  - apply (IH rest); [exact L'|]. apply (lone_suffix (s ++ [LF])). rewrite <- app_assoc. exact NL.
  - apply (IH rest); [exact L'|]. apply (lone_suffix (s ++ [CR; LF])). rewrite <- app_assoc. exact NL.
  - destruct (no_lone_cons s rest NL) as [r ->]. exfalso. exact (NR r eq_refl).
Qed.

Lemma one_line_firstn : forall k s, one_line s -> one_line (firstn k s).
Proof. intros k s [H1 H2]. split; intros I; [apply H1|apply H2]; rewrite <- (firstn_skipn k s); apply in_or_app; auto. Qed.

Lemma ascii_basic : forall s, ascii s -> basic s.
Proof.
  induction s as [|b s IH]; intros A r I; [destruct I|]. rewrite to_runes_ascii_cons in I by (apply A; left; reflexivity). destruct I as [<-|I].
  - assert (H := A b (or_introl eq_refl)). lia.
  - apply IH; [intros c Ic; apply A; right; exact Ic|exact I].
Qed.
