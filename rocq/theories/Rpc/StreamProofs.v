(** Proofs about the header framing. *)
From Coq Require Import String.
From Coq Require Import List Bool ZArith Lia.
From Coq.Strings Require Import Byte.
From Verif Require Import Base.Bytes Base.BytesProofs Base.Decimal Base.DecimalProofs Rpc.StreamModel Rpc.StreamSpec.
Import ListNotations.
Open Scope list_scope.

Lemma byte_eqb_eq : forall a b, Byte.eqb a b = true <-> a = b.
Proof. intros a b. split; [apply Byte.byte_dec_bl|intros ->; apply Byte.byte_dec_lb; reflexivity]. Qed.
Lemma byte_eqb_neq : forall a b, Byte.eqb a b = false <-> a <> b.
Proof. intros a b. rewrite <- byte_eqb_eq. destruct (Byte.eqb a b); split; congruence. Qed.

Lemma ReadString_some : forall s l r, ReadString s = Some (l, r) <-> s = l ++ r /\ is_line l.
Proof.
  induction s as [|b s IH]; intros l r; cbn.
  - split; [discriminate|]. intros (E & s & -> & _). rewrite <- app_assoc in E. destruct s; discriminate E.
  - destruct (Byte.eqb b LF) eqn:EB.
    + apply byte_eqb_eq in EB. subst b. split.
      * intros E. injection E as <- <-. split; [reflexivity|]. exists []. split; [reflexivity|intros []].
      * intros (E & [|c t] & -> & NI); cbn in E; [injection E as <-; reflexivity|]. injection E as <- _. destruct NI. left. reflexivity.
    + apply byte_eqb_neq in EB. destruct (ReadString s) as [[l' r']|] eqn:RS.
      * destruct (IH l' r') as [IH' _]. destruct (IH' eq_refl) as (-> & t & -> & NI). split.
        -- intros E. injection E as <- <-. split; [reflexivity|]. exists (b :: t). split; [reflexivity|]. intros [H|H]; [congruence|contradiction].
        -- intros (E & t' & -> & NI'). destruct t' as [|c t']; cbn in E; [injection E as E _; congruence|]. injection E as <- E.
           assert (X : Some (t ++ [LF], r') = Some (t' ++ [LF], r)).
           { apply IH. split; [exact E|]. exists t'. split; [reflexivity|]. intros X. apply NI'. right. exact X. }
           injection X as E1 E2. f_equal. f_equal; [|exact E2]. cbn. f_equal. exact E1.
      * split; [discriminate|]. intros (E & t' & -> & NI'). destruct t' as [|c t']; cbn in E; [injection E as E _; congruence|]. injection E as <- E.
        assert (X : None = Some (t' ++ [LF], r)).
        { apply IH. split; [exact E|]. exists t'. split; [reflexivity|]. intros X. apply NI'. right. exact X. }
        discriminate X.
Qed.
Lemma ReadString_none : forall s, ReadString s = None <-> ~ In LF s.
Proof.
  induction s as [|b s IH]; cbn; [tauto|]. destruct (Byte.eqb b LF) eqn:EB.
  - apply byte_eqb_eq in EB. split; [discriminate|]. intros H. destruct H. left. exact EB.
  - apply byte_eqb_neq in EB. destruct (ReadString s) as [[l r]|]; [|tauto]. split; [discriminate|]. intros H. exfalso.
    destruct IH as [_ IH]. discriminate IH. intros X. apply H. right. exact X.
Qed.

Lemma cut_colon_some : forall s n v, cut_colon s = Some (n, v) <-> s = n ++ COLON :: v /\ ~ In COLON n.
Proof.
  induction s as [|b s IH]; intros n v; cbn.
  - split; [discriminate|]. intros (E & _). destruct n; discriminate E.
  - destruct (Byte.eqb b COLON) eqn:EB.
    + apply byte_eqb_eq in EB. subst b. split.
      * intros E. injection E as <- <-. split; [reflexivity|intros []].
      * intros (E & NI). destruct n as [|c n]; cbn in E; [injection E as <-; reflexivity|]. injection E as <- _. destruct NI. left. reflexivity.
    + apply byte_eqb_neq in EB. split.
      * intros E. destruct (cut_colon s) as [[n' v']|] eqn:CC; [|discriminate E]. injection E as <- <-.
        destruct (IH n' v') as [IH' _]. destruct (IH' eq_refl) as [-> NI]. split; [reflexivity|]. intros [H|H]; [congruence|contradiction].
      * intros (E & NI). destruct n as [|c n]; cbn in E; [injection E as E _; congruence|]. injection E as <- ->.
        assert (X : cut_colon (n ++ COLON :: v) = Some (n, v)).
        { apply IH. split; [reflexivity|]. intros X. apply NI. right. exact X. }
        rewrite X. reflexivity.
Qed.

Section S.
Context {TS : TrimSpace}.

(** header lines read with [n] announced before and [m] after them *)
Inductive header_lines : Z -> list gostr -> Z -> Prop :=
| hl_nil : forall n, header_lines n [] n
| hl_length : forall n l k ls m, is_line l -> ~ blank l -> announces l k -> header_lines k ls m -> header_lines n (l :: ls) m
| hl_other : forall n l ls m, is_line l -> ~ blank l -> other_header l -> header_lines n ls m -> header_lines n (l :: ls) m.

Lemma is_line_length : forall l, is_line l -> (0 < length l)%nat.
Proof. intros l (s & -> & _). rewrite app_length. cbn. lia. Qed.

Lemma announces_spec : forall l n, announces l n <-> exists v, cut_colon (trim_space l) = Some (B "Content-Length", v) /\ ParseInt32 (trim_space v) = Some n /\ (0 < n)%Z.
Proof.
  intros l n. unfold announces, header, ParseInt32. split; intros (v & H & K).
  - exists v. split; [apply cut_colon_some; exact H|]. destruct K as (-> & K). split; [|lia].
    destruct (Z.leb (- 2 ^ 31) n && Z.ltb n (2 ^ 31)) eqn:E; [reflexivity|]. apply andb_false_iff in E as [E|E]; [apply Z.leb_gt in E|apply Z.ltb_ge in E]; lia.
  - exists v. split; [apply cut_colon_some; exact H|]. destruct K as (K & P). destruct (Atoi (trim_space v)) as [z|]; [|discriminate K].
    destruct (Z.leb (- 2 ^ 31) z && Z.ltb z (2 ^ 31)) eqn:E; [|discriminate K]. injection K as ->. apply andb_prop in E as [_ E]. apply Z.ltb_lt in E. auto.
Qed.

Lemma read_header_some : forall fuel s total n total' m rest, read_header fuel s total n = (Some (total', m), rest) ->
  exists ls b, s = concat (ls ++ [b]) ++ rest /\ header_lines n ls m /\ is_line b /\ blank b
    /\ total' = (total + Z.of_nat (length (concat (ls ++ [b]))))%Z.
Proof.
  induction fuel as [|fuel IH]; intros s total n total' m rest E; [discriminate E|]. cbn [read_header] in E.
  destruct (ReadString s) as [[line s']|] eqn:RS; [|discriminate E]. apply ReadString_some in RS as [-> IL].
  assert (REC : forall k, ~ blank line -> ((k = n /\ other_header line) \/ announces line k) -> read_header fuel s' (total + Z.of_nat (length line)) k = (Some (total', m), rest) ->
    exists ls b, line ++ s' = concat (ls ++ [b]) ++ rest /\ header_lines n ls m /\ is_line b /\ blank b /\ total' = (total + Z.of_nat (length (concat (ls ++ [b]))))%Z).
  { intros k NB KIND E'. apply IH in E' as (ls & b & -> & HL & LB & BB & ->). exists (line :: ls), b. cbn [app concat]. rewrite <- app_assoc. split; [reflexivity|].
    split; [destruct KIND as [[-> O]|A]; [apply hl_other; auto|eapply hl_length; eauto]|]. split; [exact LB|]. split; [exact BB|]. rewrite app_length. lia. }
  destruct (trim_space line) as [|b0 t0] eqn:TL.
  - injection E as <- <- <-. exists [], line. cbn. rewrite app_nil_r. split; [reflexivity|]. split; [constructor|]. auto.
  - assert (NB : ~ blank line) by (unfold blank; rewrite TL; discriminate). rewrite <- TL in E.
    destruct (cut_colon (trim_space line)) as [[name value]|] eqn:CC; [|discriminate E].
    destruct (str_eqb name (B "Content-Length")) eqn:EN.
    + apply str_eqb_eq in EN. subst name. destruct (ParseInt32 (trim_space value)) as [k|] eqn:PI; [|discriminate E].
      destruct (k <=? 0)%Z eqn:K; [discriminate E|]. apply Z.leb_gt in K. apply (REC k NB); [|exact E]. right. apply announces_spec. eauto.
    + apply (REC n NB); [|exact E]. left. split; [reflexivity|]. exists name, value. split; [apply cut_colon_some; exact CC|]. intros ->. rewrite str_eqb_refl in EN. discriminate EN.
Qed.
Lemma read_header_complete : forall ls n m b rest, header_lines n ls m -> is_line b -> blank b ->
  forall fuel total, (length (concat (ls ++ [b]) ++ rest) < fuel)%nat ->
  read_header fuel (concat (ls ++ [b]) ++ rest) total n = (Some ((total + Z.of_nat (length (concat (ls ++ [b]))))%Z, m), rest).
Proof.
  intros ls n m b rest HL LB BB. induction HL as [n|n l k ls m IL NB AN HL IH|n l ls m IL NB OT HL IH]; intros fuel total F; (destruct fuel as [|fuel]; [lia|]); cbn [app concat] in *.
  - rewrite app_nil_r in *. cbn [read_header]. assert (RS : ReadString (b ++ rest) = Some (b, rest)) by (apply ReadString_some; auto). rewrite RS.
    unfold blank in BB. rewrite BB. reflexivity.
  - rewrite <- app_assoc in *. cbn [read_header]. assert (RS : ReadString (l ++ concat (ls ++ [b]) ++ rest) = Some (l, concat (ls ++ [b]) ++ rest)) by (apply ReadString_some; auto). rewrite RS.
    destruct (trim_space l) as [|b0 t0] eqn:TL; [contradiction|]. rewrite <- TL. apply announces_spec in AN as (v & CC & PI & K). rewrite CC, PI. rewrite str_eqb_refl.
    apply Z.leb_gt in K. rewrite K. rewrite app_length in F. assert (L := is_line_length _ IL). rewrite IH by lia.
    do 3 f_equal. rewrite (app_length l). lia.
  - rewrite <- app_assoc in *. cbn [read_header]. assert (RS : ReadString (l ++ concat (ls ++ [b]) ++ rest) = Some (l, concat (ls ++ [b]) ++ rest)) by (apply ReadString_some; auto). rewrite RS.
    destruct (trim_space l) as [|b0 t0] eqn:TL; [contradiction|]. rewrite <- TL. destruct OT as (name & v & H & NE). apply cut_colon_some in H. rewrite H.
    destruct (str_eqb name (B "Content-Length")) eqn:EN; [apply str_eqb_eq in EN; contradiction|].
    rewrite app_length in F. assert (L := is_line_length _ IL). rewrite IH by lia. do 3 f_equal. rewrite (app_length l). lia.
Qed.

Lemma header_lines_last : forall n ls m, header_lines n ls m ->
  Forall is_line ls /\ Forall (fun l => ~ blank l) ls /\
  ((m = n /\ Forall other_header ls)
   \/ exists before l after, ls = before ++ l :: after /\ announces l m /\ Forall (fun l => other_header l \/ exists n, announces l n) before /\ Forall other_header after).
Proof.
  induction 1 as [n|n l k ls m IL NB AN HL (F1 & F2 & IH)|n l ls m IL NB OT HL (F1 & F2 & IH)]; (split; [constructor; auto|]); (split; [constructor; auto|]).
  - left. auto.
  - right. destruct IH as [[-> F]|(before & l' & after & -> & A & F3 & F4)]; [exists [], l, ls; auto|].
    exists (l :: before), l', after. split; [reflexivity|]. split; [exact A|]. split; [constructor; eauto|exact F4].
  - destruct IH as [[-> F]|(before & l' & after & -> & A & F3 & F4)]; [left; auto|]. right.
    exists (l :: before), l', after. split; [reflexivity|]. split; [exact A|]. split; [constructor; eauto|exact F4].
Qed.
Lemma header_lines_make : forall before l after n m, Forall is_line (before ++ l :: after) -> Forall (fun l => ~ blank l) (before ++ l :: after) ->
  announces l m -> Forall (fun l => other_header l \/ exists n, announces l n) before -> Forall other_header after -> header_lines n (before ++ l :: after) m.
Proof.
  induction before as [|x before IH]; intros l after n m F1 F2 A F3 F4; cbn in *; inversion F1; subst; inversion F2; subst.
  - eapply hl_length; eauto. clear - F4 H2 H4. induction after as [|y after IH]; [constructor|]. inversion F4; subst. inversion H2; subst. inversion H4; subst. apply hl_other; auto.
  - inversion F3 as [|? ? K F3']; subst. destruct K as [K|[k K]]; [apply hl_other; auto|eapply hl_length; eauto].
Qed.

Theorem read_message : forall s data total rest,
  Read s = (Message data total, rest) <->
  exists lines fr, frame data lines fr /\ s = fr ++ rest /\ total = Z.of_nat (length fr).
Proof.
  intros s data total rest. unfold Read. split.
  - destruct (read_header (S (length s)) s 0 0) as [[[t n]|] s'] eqn:RH; [|discriminate].
    apply read_header_some in RH as (ls & b & -> & HL & LB & BB & ->). apply header_lines_last in HL as (F1 & F2 & HL).
    destruct (n =? 0)%Z eqn:N0; [discriminate|]. apply Z.eqb_neq in N0. destruct HL as [[-> _]|(before & l & after & -> & A & F3 & F4)]; [congruence|].
    destruct (Z.of_nat (length s') <? n)%Z eqn:LT; [discriminate|]. apply Z.ltb_ge in LT. intros E. injection E as <- <- <-.
    assert (NN : (0 < n)%Z) by (destruct A as (v & _ & _ & A); lia).
    assert (LD : length (firstn (Z.to_nat n) s') = Z.to_nat n) by (apply firstn_length_le; lia).
    rewrite <- app_assoc in *. cbn [app] in *.
    exists (before ++ l :: after ++ [b]), (concat (before ++ l :: after ++ [b]) ++ firstn (Z.to_nat n) s'). split; [|split].
    + constructor; auto.
      * change (before ++ l :: after ++ [b]) with (before ++ (l :: after) ++ [b]). rewrite app_assoc. apply Forall_app. auto.
      * rewrite LD, Z2Nat.id by lia. exact A.
    + rewrite <- app_assoc, firstn_skipn. reflexivity.
    + rewrite (app_length (concat _)), LD. lia.
  - intros (lines & fr & FR & -> & ->). destruct FR as [before l after b F1 F2 BB F3 F4 A].
    assert (NN : (0 < Z.of_nat (length data) < 2 ^ 31)%Z) by (destruct A as (v & _ & _ & A); exact A).
    assert (EL : before ++ l :: after ++ [b] = (before ++ l :: after) ++ [b]) by (rewrite <- app_assoc; reflexivity). rewrite EL in *.
    apply Forall_app in F1 as [F1 LB]. inversion LB; subst.
    rewrite <- app_assoc. rewrite (read_header_complete (before ++ l :: after) 0 (Z.of_nat (length data)) b); auto.
    + assert (N0 : (Z.of_nat (length data) =? 0)%Z = false) by (apply Z.eqb_neq; lia). rewrite N0.
      assert (LT : (Z.of_nat (length (data ++ rest)) <? Z.of_nat (length data))%Z = false) by (apply Z.ltb_ge; rewrite app_length; lia). rewrite LT.
      rewrite Nat2Z.id, firstn_app, Nat.sub_diag, firstn_all, firstn_O, app_nil_r, skipn_app, Nat.sub_diag, skipn_all, skipn_O. cbn [app].
      do 2 f_equal. rewrite (app_length (concat _) data). lia.
    + apply header_lines_make; auto.
Qed.

(** ** Write *)
Hypothesis TOK : trim_ok TS.
Lemma trim_left_stop : forall b s, ascii_space b = false -> trim_left (b :: s) = b :: s.
Proof. intros b s E. cbn. rewrite E. reflexivity. Qed.
Lemma ascii_trim_keep : forall s b c w, ascii_space b = false -> ascii_space c = false -> Forall (fun x => ascii_space x = true) w -> ascii_trim (b :: s ++ [c] ++ w) = b :: s ++ [c].
Proof.
  intros s b c w HB HC W. unfold ascii_trim. rewrite trim_left_stop by exact HB.
  change (b :: s ++ [c] ++ w) with ((b :: s) ++ [c] ++ w). rewrite !rev_app_distr. cbn [rev app].
  assert (TL : forall w t, Forall (fun x => ascii_space x = true) w -> trim_left (w ++ t) = trim_left t).
  { clear. induction w as [|x w IH]; intros t F; [reflexivity|]. inversion F; subst. cbn. rewrite H1. apply IH. assumption. }
  rewrite <- app_assoc. rewrite TL by (apply Forall_rev; exact W). cbn [app]. rewrite trim_left_stop by exact HC.
  cbn [rev]. rewrite rev_app_distr. cbn. rewrite rev_involutive. reflexivity.
Qed.
Lemma digit_ascii : forall b, is_digit_byte b = true -> is_ascii b /\ ascii_space b = false /\ b <> COLON /\ b <> LF.
Proof. intros b D. destruct b; try discriminate D; (split; [vm_compute; reflexivity|]); (split; [reflexivity|]); split; discriminate. Qed.

Theorem write_frame : forall data, (0 < Z.of_nat (length data) < 2 ^ 31)%Z -> exists lines, frame data lines (Write data).
Proof.
  intros data LEN. set (n := Z.of_nat (length data)) in *.
  assert (DG : forall b, In b (Itoa n) -> is_digit_byte b = true) by (apply Itoa_nonneg_digits; lia).
  assert (D1 : exists ds d, Itoa n = ds ++ [d]) by (destruct (exists_last (Itoa_not_nil n)) as (ds & d & E); eauto). destruct D1 as (ds & d & ED).
  assert (Dd : is_digit_byte d = true) by (apply DG; rewrite ED; apply in_or_app; right; left; reflexivity).
  assert (D2 : exists d0 ds0, Itoa n = d0 :: ds0) by (destruct (Itoa n) as [|d0 ds0] eqn:EI; [destruct (Itoa_not_nil _ EI)|eauto]). destruct D2 as (d0 & ds0 & ED0).
  assert (Dd0 : is_digit_byte d0 = true) by (apply DG; rewrite ED0; left; reflexivity).
  assert (ASC : Forall is_ascii (Itoa n)) by (apply Forall_forall; intros b I; apply digit_ascii; apply DG; exact I).
  set (l := B "Content-Length: " ++ Itoa n ++ [x0d; LF]).
  assert (TL : trim_space l = B "Content-Length: " ++ Itoa n).
  { rewrite TOK.
    - unfold l. rewrite ED. change (B "Content-Length: " ++ (ds ++ [d]) ++ [x0d; LF]) with ("C"%byte :: (B "ontent-Length: " ++ (ds ++ [d]) ++ [x0d; LF])).
      rewrite app_assoc, (app_assoc _ ds [d]), <- (app_assoc _ [d] [x0d; LF]). rewrite ascii_trim_keep; [|reflexivity|apply digit_ascii; exact Dd|repeat constructor].
      cbn [app]. rewrite <- app_assoc. reflexivity.
    - unfold l. apply Forall_app. split; [repeat constructor|]. apply Forall_app. split; [exact ASC|repeat constructor]. }
  exists ([] ++ l :: [] ++ [[x0d; LF]]).
  replace (Write data) with (concat ([] ++ l :: [] ++ [[x0d; LF]]) ++ data).
  - constructor.
    + cbn [app]. constructor; [|constructor; [exists [x0d]; split; [reflexivity|intros [X|[]]; discriminate X]|constructor]].
      exists (B "Content-Length: " ++ Itoa n ++ [x0d]). split; [unfold l; rewrite <- !app_assoc; reflexivity|].
      intros I. apply in_app_or in I as [I|I]; [cbn in I; repeat destruct I as [I|I]; try discriminate I; destruct I|].
      apply in_app_or in I as [I|[I|[]]]; [|discriminate I]. apply DG, digit_ascii in I. tauto.
    + constructor; [|constructor]. unfold blank. rewrite TL. discriminate.
    + unfold blank. rewrite TOK by repeat constructor. reflexivity.
    + constructor.
    + constructor.
    + exists (x20 :: Itoa n). split; [split; [rewrite TL; reflexivity|]|].
      * intros I. cbn in I. repeat destruct I as [I|I]; try discriminate I; destruct I.
      * split; [|exact LEN]. rewrite TOK by (constructor; [vm_compute; reflexivity|exact ASC]).
        assert (TI : ascii_trim (x20 :: Itoa n) = Itoa n).
        { unfold ascii_trim. cbn [trim_left ascii_space]. rewrite ED0. rewrite trim_left_stop by (apply digit_ascii; exact Dd0). rewrite <- ED0, ED.
          rewrite rev_app_distr. cbn [rev app]. rewrite trim_left_stop by (apply digit_ascii; exact Dd). cbn [rev]. rewrite rev_involutive. reflexivity. }
        rewrite TI. apply Atoi_Itoa. lia.
  - unfold Write, l. cbn [app concat]. fold n. rewrite <- !app_assoc. reflexivity.
Qed.

(** a message of 2^31 bytes or more is announced with a number too large *)
Theorem write_too_long : forall data rest, (2 ^ 31 <= Z.of_nat (length data) < 2 ^ 63)%Z -> fst (Read (Write data ++ rest)) = Failed.
Proof.
  intros data rest LEN. destruct (Read (Write data ++ rest)) as [[|data' total] r] eqn:RD; [reflexivity|]. exfalso.
  apply read_message in RD as (lines & fr & FR & E & _). destruct FR as [before l after b F1 F2 BB F3 F4 A].
  set (n := Z.of_nat (length data)) in *.
  assert (DG : forall b, In b (Itoa n) -> is_digit_byte b = true) by (apply Itoa_nonneg_digits; lia).
  set (l0 := B "Content-Length: " ++ Itoa n ++ [x0d; LF]).
  assert (L0 : is_line l0).
  { exists (B "Content-Length: " ++ Itoa n ++ [x0d]). split; [unfold l0; rewrite <- !app_assoc; reflexivity|].
    intros I. apply in_app_or in I as [I|I]; [cbn in I; repeat destruct I as [I|I]; try discriminate I; destruct I|].
    apply in_app_or in I as [I|[I|[]]]; [|discriminate I]. apply DG, digit_ascii in I. tauto. }
  assert (D1 : exists ds d, Itoa n = ds ++ [d]) by (destruct (exists_last (Itoa_not_nil n)) as (ds & d & ED); eauto). destruct D1 as (ds & d & ED).
  assert (Dd : is_digit_byte d = true) by (apply DG; rewrite ED; apply in_or_app; right; left; reflexivity).
  assert (D2 : exists d0 ds0, Itoa n = d0 :: ds0) by (destruct (Itoa n) as [|d0 ds0] eqn:EI; [destruct (Itoa_not_nil _ EI)|eauto]). destruct D2 as (d0 & ds0 & ED0).
  assert (Dd0 : is_digit_byte d0 = true) by (apply DG; rewrite ED0; left; reflexivity).
  assert (ASC : Forall is_ascii (Itoa n)) by (apply Forall_forall; intros x I; apply digit_ascii; apply DG; exact I).
  assert (TL : trim_space l0 = B "Content-Length: " ++ Itoa n).
  { rewrite TOK.
    - unfold l0. rewrite ED. change (B "Content-Length: " ++ (ds ++ [d]) ++ [x0d; LF]) with ("C"%byte :: (B "ontent-Length: " ++ (ds ++ [d]) ++ [x0d; LF])).
      rewrite app_assoc, (app_assoc _ ds [d]), <- (app_assoc _ [d] [x0d; LF]). rewrite ascii_trim_keep; [|reflexivity|apply digit_ascii; exact Dd|repeat constructor].
      cbn [app]. rewrite <- app_assoc. reflexivity.
    - unfold l0. apply Forall_app. split; [repeat constructor|]. apply Forall_app. split; [exact ASC|repeat constructor]. }
  assert (HD : exists ls, before ++ l :: after ++ [b] = l0 :: ls).
  { destruct (before ++ l :: after ++ [b]) as [|x ls] eqn:EL; [destruct before; discriminate EL|]. exists ls. f_equal. inversion F1; subst.
    assert (R1 : ReadString (Write data ++ rest) = Some (l0, [x0d; LF] ++ data ++ rest)).
    { apply ReadString_some. split; [|exact L0]. unfold Write, l0. fold n. rewrite <- !app_assoc. reflexivity. }
    rewrite E in R1. cbn [concat] in R1. rewrite <- !app_assoc in R1.
    match type of R1 with ReadString (x ++ ?t) = _ => assert (R2 : ReadString (x ++ t) = Some (x, t)) by (apply ReadString_some; auto) end.
    rewrite R1 in R2. injection R2 as R2 _. symmetry. exact R2. }
  destruct HD as (ls & HD).
  assert (AN : exists k, announces l0 k).
  { destruct before as [|x before]; cbn [app] in HD; injection HD as HX _; rewrite <- HX; [eauto|].
    inversion F3 as [|? ? [O|K] _]; [|exact K]. destruct O as (name & v & [EH NC] & NE).
    rewrite HX, TL in EH. exfalso. apply NE. assert (C1 : cut_colon (name ++ COLON :: v) = Some (name, v)) by (apply cut_colon_some; auto).
    rewrite <- EH in C1. cbn in C1. injection C1 as <- _. reflexivity. }
  destruct AN as (k & v & [EH NC] & AT & K). rewrite TL in EH.
  assert (C1 : cut_colon (B "Content-Length" ++ COLON :: v) = Some (B "Content-Length", v)) by (apply cut_colon_some; auto).
  rewrite <- EH in C1. cbn in C1. injection C1 as <-. rewrite TOK in AT by (constructor; [vm_compute; reflexivity|exact ASC]).
  assert (TI : ascii_trim (x20 :: Itoa n) = Itoa n).
  { unfold ascii_trim. cbn [trim_left ascii_space]. rewrite ED0. rewrite trim_left_stop by (apply digit_ascii; exact Dd0). rewrite <- ED0, ED.
    rewrite rev_app_distr. cbn [rev app]. rewrite trim_left_stop by (apply digit_ascii; exact Dd). cbn [rev]. rewrite rev_involutive. reflexivity. }
  change (" "%byte :: Itoa n) with (x20 :: Itoa n) in AT. rewrite TI, Atoi_Itoa in AT by lia. injection AT as AT. lia.
Qed.
End S.

(** ** Malformed frames *)
Section Malformed.
Context {TS : TrimSpace}.
Lemma line_unique : forall a b x y, is_line a -> is_line b -> a ++ x = b ++ y -> a = b /\ x = y.
Proof.
  intros a b x y A B' E. assert (H1 : ReadString (a ++ x) = Some (a, x)) by (apply ReadString_some; auto).
  assert (H2 : ReadString (a ++ x) = Some (b, y)) by (rewrite E; apply ReadString_some; auto). rewrite H1 in H2. injection H2; auto.
Qed.
Lemma lines_compare : forall ls ms x y, Forall is_line ls -> Forall is_line ms -> concat ls ++ x = concat ms ++ y ->
  (exists k, ls = ms ++ k) \/ (exists k, ms = ls ++ k).
Proof.
  induction ls as [|a ls IH]; intros ms x y L M E; [right; exists ms; reflexivity|]. destruct ms as [|b ms]; [left; exists (a :: ls); reflexivity|].
  inversion L; inversion M; subst. cbn [concat] in E. rewrite <- !app_assoc in E. destruct (line_unique _ _ _ _ H1 H5 E) as [-> E'].
  destruct (IH ms x y H2 H6 E') as [[k ->]|[k ->]]; [left|right]; exists k; reflexivity.
Qed.
Lemma header_unique : forall l n v n' v', header l n v -> header l n' v' -> n = n' /\ v = v'.
Proof.
  intros l n v n' v' [E1 N1] [E2 N2]. assert (H1 : cut_colon (trim_space l) = Some (n, v)) by (apply cut_colon_some; auto).
  assert (H2 : cut_colon (trim_space l) = Some (n', v')) by (apply cut_colon_some; auto). rewrite H1 in H2. injection H2; auto.
Qed.
Lemma not_message : forall s, (forall data total rest, Read s <> (Message data total, rest)) -> fst (Read s) = Failed.
Proof. intros s H. destruct (Read s) as [[|data total] rest] eqn:E; [reflexivity|]. destruct (H _ _ _ eq_refl). Qed.

Theorem read_bad_line : forall before l rest, Forall is_line (before ++ [l]) -> Forall (fun l => ~ blank l) (before ++ [l]) ->
  ~ other_header l -> (forall n, ~ announces l n) -> fst (Read (concat (before ++ [l]) ++ rest)) = Failed.
Proof.
  intros before l rest L NB NO NA. apply not_message. intros data total r E. apply read_message in E as (lines & fr & F & E & _).
  destruct F as [bf h af b L' NB' BL OB OA AN]. rewrite <- app_assoc in E.
  assert (NB2 : Forall (fun l => ~ blank l) (before ++ [l])) by exact NB.
  assert (HIN : forall k, bf ++ h :: af ++ [b] = (before ++ [l]) ++ k -> In l (bf ++ h :: af)).
  { intros k E2. assert (I : In l (bf ++ h :: af ++ [b])) by (rewrite E2; apply in_or_app; left; apply in_or_app; right; left; reflexivity).
    change (bf ++ h :: af ++ [b]) with (bf ++ (h :: af) ++ [b]) in I. rewrite app_assoc in I. apply in_app_or in I as [I|[<-|[]]]; [exact I|].
    exfalso. apply Forall_app in NB as [_ NB]. inversion NB; subst. contradiction. }
  assert (OK : In l (bf ++ h :: af) -> False).
  { intros I. apply in_app_or in I as [I|[<-|I]].
    - rewrite Forall_forall in OB. destruct (OB l I) as [O|[n O]]; [exact (NO O)|exact (NA n O)].
    - exact (NA _ AN).
    - rewrite Forall_forall in OA. exact (NO (OA l I)). }
  destruct (lines_compare _ _ _ _ L L' E) as [[k E2]|[k E2]]; [|exact (OK (HIN k E2))].
  rewrite E2 in NB2. apply Forall_app in NB2 as [NB2 _]. rewrite Forall_forall in NB2. apply (NB2 b); [|exact BL].
  apply in_or_app. right. right. apply in_or_app. right. left. reflexivity.
Qed.
Theorem read_no_length : forall lines b rest, Forall is_line (lines ++ [b]) -> Forall (fun l => ~ blank l) lines -> blank b ->
  Forall other_header lines -> fst (Read (concat (lines ++ [b]) ++ rest)) = Failed.
Proof.
  intros lines b rest L NB BL OH. apply not_message. intros data total r E. apply read_message in E as (ls & fr & F & E & _).
  destruct F as [bf h af b' L' NB' BL' OB OA AN]. rewrite <- app_assoc in E.
  assert (NAN : forall x, In x lines -> x <> h).
  { intros x I ->. rewrite Forall_forall in OH. destruct (OH h I) as (n & v & H & NE). destruct AN as (v' & H' & _). destruct (header_unique _ _ _ _ _ H H'). contradiction. }
  assert (NBh : ~ blank h) by (rewrite Forall_forall in NB'; apply NB'; apply in_or_app; right; left; reflexivity).
  destruct (lines_compare _ _ _ _ L L' E) as [[k E2]|[k E2]].
  - assert (I : In h (lines ++ [b])) by (rewrite E2; apply in_or_app; left; apply in_or_app; right; left; reflexivity).
    apply in_app_or in I as [I|[<-|[]]]; [exact (NAN h I eq_refl)|exact (NBh BL)].
  - assert (I : In b (bf ++ h :: af) \/ k = []).
    { destruct (exists_last (l := b :: k)) as (k' & x & Ek); [discriminate|]. rewrite <- app_assoc in E2. cbn [app] in E2. rewrite Ek, app_assoc in E2.
      change (bf ++ h :: af ++ [b']) with (bf ++ (h :: af) ++ [b']) in E2. rewrite app_assoc in E2. apply app_inj_tail in E2 as [E2 <-].
      destruct k' as [|y k']; [injection Ek as _ ->; auto|]. injection Ek as <- _. left. rewrite E2. apply in_or_app. right. left. reflexivity. }
    destruct I as [I| ->]; [rewrite Forall_forall in NB'; exact (NB' b I BL)|]. rewrite app_nil_r in E2.
    assert (I : In h (lines ++ [b])) by (rewrite <- E2; apply in_or_app; right; left; reflexivity).
    apply in_app_or in I as [I|[<-|[]]]; [exact (NAN h I eq_refl)|exact (NBh BL)].
Qed.
End Malformed.
