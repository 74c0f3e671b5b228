(** The events of a walk over the symbols of a document, and the callee of an
    argument list. *)
From Coq Require Import String.
From Coq Require Import List Bool ZArith Lia Sorting.Sorted.
From Verif Require Import Base.Bytes Base.BytesProofs Base.Protocol Base.SortSearch Text.PositionModel Text.PositionSpec Claims.Positions
  Ide.VariableProofs Ide.TreeModel Ide.TreeSpec Ide.TreeProofs Ide.FindProofs.
Import ListNotations.
Open Scope list_scope.

(** ** Entering and leaving *)
Definition shift (i : nat) (e : bool * path) : bool * path := (fst e, i :: snd e).
Fixpoint tags (s : symbol) : list (bool * path) :=
  match s with
  | Sym _ kids => (true, []) :: (fix go (i : nat) (l : list symbol) : list (bool * path) :=
      match l with [] => [] | c :: l => map (shift i) (tags c) ++ go (S i) l end) 0%nat kids ++ [(false, [])]
  end.
Fixpoint tags_list (i : nat) (l : list symbol) : list (bool * path) :=
  match l with [] => [] | c :: l => map (shift i) (tags c) ++ tags_list (S i) l end.
Lemma tags_eq : forall s, tags s = (true, []) :: tags_list 0 (sy_kids s) ++ [(false, [])].
Proof.
  intros [d kids]. reflexivity.
Qed.
Definition event_of (b : bool) (s : symbol) : event := if b then Pre s else Post s.
Lemma shift_lt : forall i e f, event_lt e f -> event_lt (shift i e) (shift i f).
Proof.
  intros i [b p] [b' q]. unfold event_lt, shift. cbn [fst snd].
  assert (PP : forall p q, proper_prefix (i :: p) (i :: q) <-> proper_prefix p q).
  { intros x y. split; intros (j & r & E); exists j, r; [cbn in E; congruence|cbn; congruence]. }
  rewrite !PP. cbn [path_lt]. intros [(-> & A)|[H|[H|[A H]]]]; auto. right. right. right. split; [right; auto|exact H].
Qed.
Lemma event_sorted_app : forall a b, StronglySorted event_lt a -> StronglySorted event_lt b -> (forall x y, In x a -> In y b -> event_lt x y) -> StronglySorted event_lt (a ++ b).
Proof.
  induction a as [|x a IH]; intros b A B' H; [exact B'|]. inversion A; subst. cbn. constructor.
  - apply IH; [assumption|exact B'|]. intros; apply H; [right|]; assumption.
  - apply Forall_app. split; [assumption|]. apply Forall_forall. intros y Y. apply H; [left; reflexivity|exact Y].
Qed.
Lemma map_shift_sorted : forall i l, StronglySorted event_lt l -> StronglySorted event_lt (map (shift i) l).
Proof.
  intros i. induction l as [|x l IH]; intros A; [constructor|]. inversion A; subst. cbn. constructor; [auto|].
  apply Forall_forall. intros y Y. apply in_map_iff in Y as (z & <- & Z). apply shift_lt. rewrite Forall_forall in H2. auto.
Qed.
Lemma tags_list_In : forall l i b p, In (b, p) (tags_list i l) <-> exists k c q, nth_error l k = Some c /\ p = (i + k)%nat :: q /\ In (b, q) (tags c).
Proof.
  induction l as [|c l IH]; intros i b p; cbn [tags_list].
  - split; [intros []|]. intros (k & c & q & N & _). destruct k; discriminate N.
  - rewrite in_app_iff, IH. split.
    + intros [I|(k & c' & q & N & -> & I)].
      * apply in_map_iff in I as ([b' q] & E & I). unfold shift in E. cbn in E. injection E as <- <-. exists 0%nat, c, q. rewrite Nat.add_0_r. auto.
      * exists (S k), c', q. rewrite Nat.add_succ_r. auto.
    + intros ([|k] & c' & q & N & -> & I); cbn in N.
      * left. injection N as ->. apply in_map_iff. exists (b, q). rewrite Nat.add_0_r. auto.
      * right. exists k, c', q. rewrite Nat.add_succ_r. auto.
Qed.
Lemma tags_list_sorted : forall l i, (forall c, In c l -> StronglySorted event_lt (tags c)) -> StronglySorted event_lt (tags_list i l).
Proof.
  induction l as [|c l IH]; intros i H; [constructor|]. cbn. apply event_sorted_app.
  - apply map_shift_sorted. apply H. left. reflexivity.
  - apply IH. intros; apply H; right; assumption.
  - intros x [b p] X Y. apply in_map_iff in X as ([b' q] & <- & _). apply tags_list_In in Y as (k & c' & q' & _ & -> & _). unfold event_lt, shift. cbn [fst snd].
    right. right. right. split; [left; lia|]. intros (j & r & E). cbn in E. injection E as E _. lia.
Qed.
Lemma tags_sorted : forall s, StronglySorted event_lt (tags s).
Proof.
  induction s as [d kids IH] using sym_rect'. rewrite tags_eq. cbn [sy_kids].
  assert (NE : forall b p, In (b, p) (tags_list 0 kids) -> exists j r, p = j :: r) by (intros b p I; apply tags_list_In in I as (k & c & q & _ & -> & _); eauto).
  constructor.
  - apply event_sorted_app; [apply tags_list_sorted; exact IH|repeat constructor|].
    intros [b p] y I [<-|[]]. destruct (NE _ _ I) as (j & r & ->). right. right. left. split; [exists j, r; reflexivity|reflexivity].
  - apply Forall_app. split; [|repeat constructor].
    apply Forall_forall. intros [b p] I. destruct (NE _ _ I) as (j & r & ->). right. left. split; [exists j, r; reflexivity|reflexivity].
Qed.
Lemma tags_all : forall s b p, In (b, p) (tags s) <-> at_path sy_kids s p <> None.
Proof.
  induction s as [d kids IH] using sym_rect'. intros b p. rewrite tags_eq. cbn [sy_kids In]. rewrite in_app_iff, tags_list_In. split.
  - intros [E|[(k & c & q & N & -> & I)|[E|[]]]]; [injection E as <- <-; cbn; discriminate| |injection E as <- <-; cbn; discriminate]. cbn. rewrite N. apply (IH c (nth_error_In _ _ N)) in I. exact I.
  - intros H. destruct p as [|k q]; [destruct b; [left; reflexivity|right; right; left; reflexivity]|]. right. left. cbn in H. destruct (nth_error kids k) as [c|] eqn:N; [|congruence].
    exists k, c, q. split; [exact N|]. split; [reflexivity|]. apply (IH c (nth_error_In _ _ N)). exact H.
Qed.
Lemma tags_events : forall s, Forall2 (fun t e => exists u, at_path sy_kids s (snd t) = Some u /\ e = event_of (fst t) u) (tags s) (TraverseSymbol s).
Proof.
  induction s as [d kids IH] using sym_rect'. rewrite tags_eq. cbn [TraverseSymbol app]. constructor; [cbn; eauto|]. apply Forall2_app; [|constructor; [cbn; eauto|constructor]].
  assert (G : forall l i, (forall k c, nth_error l k = Some c -> nth_error kids (i + k) = Some c) ->
    Forall2 (fun t e => exists u, at_path sy_kids (Sym d kids) (snd t) = Some u /\ e = event_of (fst t) u) (tags_list i l) (flat_map TraverseSymbol l)).
  { induction l as [|c l IHl]; intros i N; [constructor|]. cbn [tags_list flat_map]. apply Forall2_app.
    - assert (NI : nth_error kids i = Some c) by (specialize (N 0%nat c eq_refl); rewrite Nat.add_0_r in N; exact N).
      assert (I := IH c (nth_error_In _ _ NI)). clear - I NI. induction I as [|[b p] e l l' (u & A & ->) I IHI]; cbn [map]; constructor; [|exact IHI].
      exists u. cbn [shift fst snd at_path sy_kids] in *. rewrite NI. auto.
    - apply IHl. intros k c' N'. specialize (N (S k) c' N'). rewrite Nat.add_succ_r in N. exact N. }
  apply G. intros k c N. exact N.
Qed.
Lemma document_events : forall doc, exists ps,
  Forall2 (fun t e => exists u, sym_at doc (snd t) u /\ e = event_of (fst t) u) ps (TraverseDocument doc)
  /\ StronglySorted event_lt ps /\ forall b p, In (b, p) ps <-> exists u, sym_at doc p u.
Proof.
  intros doc. exists (tags_list 0 doc). split; [|split].
  - unfold TraverseDocument. assert (G : forall l i, (forall k c, nth_error l k = Some c -> nth_error doc (i + k) = Some c) ->
      Forall2 (fun t e => exists u, sym_at doc (snd t) u /\ e = event_of (fst t) u) (tags_list i l) (flat_map TraverseSymbol l)).
    { induction l as [|c l IHl]; intros i N; [constructor|]. cbn [tags_list flat_map]. apply Forall2_app.
      - assert (NI : nth_error doc i = Some c) by (specialize (N 0%nat c eq_refl); rewrite Nat.add_0_r in N; exact N).
        assert (I := tags_events c). clear - I NI. induction I as [|[b p] e l l' (u & A & ->) I IHI]; cbn [map]; constructor; [|exact IHI].
        exists u. unfold sym_at. cbn [shift fst snd in_forest] in *. rewrite NI. auto.
      - apply IHl. intros k c' N'. specialize (N (S k) c' N'). rewrite Nat.add_succ_r in N. exact N. }
    apply G. intros k c N. exact N.
  - apply tags_list_sorted. intros c _. apply tags_sorted.
  - intros b p. rewrite tags_list_In. unfold sym_at. split.
    + intros (k & c & q & N & -> & I). apply tags_all in I. cbn. rewrite N. destruct (at_path sy_kids c q) as [u|]; [eauto|congruence].
    + intros (u & E). destruct p as [|k q]; [discriminate E|]. cbn in E. destruct (nth_error doc k) as [c|] eqn:N; [|discriminate E].
      exists k, c, q. split; [reflexivity || exact N|]. split; [reflexivity|]. apply tags_all. congruence.
Qed.

(** ** The callee of an argument list *)
Lemma above_snoc : forall (doc : list symbol) q i u n, sym_at doc q u -> sym_at doc (q ++ [i]) n -> above_in sy_kids doc (q ++ [i]) = above_in sy_kids doc q ++ [u].
Proof.
  assert (A : forall q (t u n : symbol) i, at_path sy_kids t q = Some u -> at_path sy_kids t (q ++ [i]) = Some n -> above sy_kids t (q ++ [i]) = above sy_kids t q ++ [u]).
  { induction q as [|j q IH]; intros t u n i E E'; cbn in *.
    - injection E as <-. destruct (nth_error (sy_kids t) i); [reflexivity|discriminate E'].
    - destruct (nth_error (sy_kids t) j) as [c|]; [|discriminate E]. rewrite (IH c u n i E E'). reflexivity. }
  intros doc [|j q] i u n E E'; [discriminate E|]. unfold sym_at in *. cbn in *. destruct (nth_error doc j) as [c|]; [|discriminate E]. eapply A; eauto.
Qed.
Lemma parent_at : forall (doc : list symbol) q i n, sym_at doc (q ++ [i]) n -> q = [] \/ exists u, sym_at doc q u.
Proof. intros doc q i n H. destruct q as [|j q]; [auto|]. right. apply (in_forest_prefix doc (j :: q) i [] n H). discriminate. Qed.
Lemma above_root : forall (doc : list symbol) i n, sym_at doc [i] n -> above_in sy_kids doc [i] = [].
Proof. intros doc i n H. unfold sym_at in H. cbn in *. destruct (nth_error doc i); reflexivity. Qed.
Lemma spine_cases : forall (doc : list symbol) p n, sym_at doc p n ->
  match rev (above_in sy_kids doc p ++ [n]) with
  | _ :: c :: d :: _ => exists r i j, p = r ++ [i; j] /\ sym_at doc r d /\ sym_at doc (r ++ [i]) c
  | _ => ~ exists r i j d, p = r ++ [i; j] /\ sym_at doc r d
  end.
Proof.
  intros doc p n AT. destruct (exists_last (l := p)) as (q & j & ->); [intros ->; discriminate AT|].
  rewrite rev_app_distr. cbn [rev app]. destruct (parent_at _ _ _ _ AT) as [->|(c & C)].
  - change ([] ++ [j]) with [j]; rewrite (above_root doc j n AT). cbn [rev]. intros (r & i & j' & d & E & _). destruct r as [|? [|]]; discriminate E.
  - rewrite (above_snoc doc q j c n C AT), rev_app_distr. cbn [rev app].
    destruct (exists_last (l := q)) as (r & i & ->); [intros ->; discriminate C|]. destruct (parent_at _ _ _ _ C) as [->|(d & D)].
    + change ([] ++ [i]) with [i]; rewrite (above_root doc i c C). cbn [rev]. intros (r & i' & j' & d & E & D). cbn [app] in E. destruct r as [|? r]; [discriminate D|].
      cbn in E. injection E as _ E. destruct r as [|? [|]]; discriminate E.
    + rewrite (above_snoc doc r i d c D C), rev_app_distr. cbn [rev app]. exists r, i, j. rewrite <- app_assoc. auto.
Qed.
Lemma anonymous_unique : forall doc p d d', anonymous_class_arguments doc p d -> anonymous_class_arguments doc p d' -> d = d'.
Proof.
  intros doc p d d' (r & i & j & c & -> & D & _) (r' & i' & j' & c' & E & D' & _).
  change ([i; j]) with ([i] ++ [j]) in E. change ([i'; j']) with ([i'] ++ [j']) in E. rewrite !app_assoc in E. apply app_inj_tail in E as [E _]. apply app_inj_tail in E as [-> _].
  unfold sym_at in *. congruence.
Qed.
Section Callee.
Variable doc : list symbol.
Variable pos : position.
Lemma replay_callee : forall E,
  (forall p n sp a, In (p, (n, sp, a)) E -> sym_at doc p n /\ sp = above_in sy_kids doc p ++ [n]) -> StronglySorted path_lt (map fst E) ->
  match replay (arg_list_fn pos) (map snd E) (None, None) with
  | (None, callee) => callee = None
  | (Some n, callee) => exists p sp a, In (p, (n, sp, a)) E /\ sym_at doc p n /\ sy_kind (sy_data n) = KArgumentList /\ contains n pos
      /\ (forall q m sp' a', In (q, (m, sp', a')) E -> sy_kind (sy_data m) = KArgumentList -> contains m pos -> q = p \/ path_lt q p)
      /\ (forall d, anonymous_class_arguments doc p d -> callee = Some d)
      /\ ((forall d, ~ anonymous_class_arguments doc p d) -> callee = None \/
           exists q m d, path_lt q p /\ sym_at doc q m /\ sy_kind (sy_data m) = KArgumentList /\ contains m pos /\ anonymous_class_arguments doc q d /\ callee = Some d)
  end.
Proof.
  intros E. induction E as [|[p [[n sp] a]] E IH] using rev_ind; intros C SO.
  - reflexivity.
  - rewrite map_app in SO. assert (S1 : StronglySorted path_lt (map fst E) /\ forall x, In x (map fst E) -> path_lt x p).
    { clear -SO. induction (map fst E) as [|y l IH]; [split; [constructor|intros x []]|]. cbn in SO. inversion SO; subst. destruct (IH H1) as [A B']. split.
      - constructor; [exact A|]. apply Forall_app in H2 as [H2 _]. exact H2.
      - intros x [<-|I]; [|auto]. apply Forall_app in H2 as [_ H2]. inversion H2; assumption. }
    destruct S1 as [S1 LT].
    assert (C1 : forall p n sp a, In (p, (n, sp, a)) E -> sym_at doc p n /\ sp = above_in sy_kids doc p ++ [n]) by (intros; eapply C; apply in_app_iff; eauto).
    specialize (IH C1 S1). destruct (C p n sp a) as [AT ->]; [apply in_app_iff; right; left; reflexivity|].
    rewrite map_app. cbn [map snd]. rewrite replay_app. unfold replay at 1. cbn [fold_left fst snd]. fold (replay (arg_list_fn pos) (map snd E) (None, None)).
    set (st := replay (arg_list_fn pos) (map snd E) (None, None)) in *. clearbody st.
    assert (KEEP : (sy_kind (sy_data n) = KArgumentList -> ~ contains n pos) -> fst (arg_list_fn pos st n (above_in sy_kids doc p ++ [n])) = st).
    { intros K. unfold arg_list_fn. destruct (_ =? 0)%Z eqn:R.
      - apply in_range0 in R. destruct (sy_kind (sy_data n)); try reflexivity. destruct (K eq_refl). exact R.
      - destruct (_ <? 0)%Z; [reflexivity|]. destruct (0 <? _)%Z; reflexivity. }
    assert (CASE : (sy_kind (sy_data n) = KArgumentList /\ contains n pos) \/ (sy_kind (sy_data n) = KArgumentList -> ~ contains n pos)).
    { destruct ((IsInRange pos (sy_range (sy_data n)) =? 0)%Z) eqn:R.
      - apply in_range0 in R. destruct (sy_kind (sy_data n)); try (right; discriminate). left. auto.
      - right. intros _ R'. apply in_range0 in R'. congruence. }
    destruct CASE as [[K CT]|NO].
    + assert (R : (IsInRange pos (sy_range (sy_data n)) =? 0)%Z = true) by (apply in_range0; exact CT).
      unfold arg_list_fn. rewrite R, K. cbn [fst]. exists p, (above_in sy_kids doc p ++ [n]), a.
      split; [apply in_app_iff; right; left; reflexivity|]. split; [exact AT|]. split; [exact K|]. split; [exact CT|]. split.
      * intros q m sp' a' J _ _. apply in_app_iff in J as [J|[J|[]]]; [right; apply LT; apply (in_map fst) in J; exact J|injection J as <- _ _ _; auto].
      * assert (SC := spine_cases doc p n AT).
        assert (PREV : snd st = None \/ exists q m d, path_lt q p /\ sym_at doc q m /\ sy_kind (sy_data m) = KArgumentList /\ contains m pos /\ anonymous_class_arguments doc q d /\ snd st = Some d).
        { destruct st as [[m|] callee]; [|left; exact IH]. destruct IH as (q & sp & a' & I & AQ & KM & CM & _ & H1 & H2).
          assert (LQ : path_lt q p) by (apply LT; apply (in_map fst) in I; exact I).
          assert (DEC : (exists d, anonymous_class_arguments doc q d) \/ forall d, ~ anonymous_class_arguments doc q d).
          { assert (SQ := spine_cases doc q m AQ). destruct (rev (above_in sy_kids doc q ++ [m])) as [|x [|c [|d l]]].
            - right. intros d (r & i & j & c & E' & D & _). apply SQ. exists r, i, j, d. auto.
            - right. intros d (r & i & j & c & E' & D & _). apply SQ. exists r, i, j, d. auto.
            - right. intros d (r & i & j & c' & E' & D & _). apply SQ. exists r, i, j, d. auto.
            - destruct SQ as (r & i & j & -> & D & C').
              assert (Z : (sy_kind (sy_data d) = KClassTypeDesignator /\ sy_kind (sy_data c) = KClass) \/ ~ (sy_kind (sy_data d) = KClassTypeDesignator /\ sy_kind (sy_data c) = KClass)).
              { destruct (sy_kind (sy_data d)); try (right; intros [Z _]; discriminate Z). destruct (sy_kind (sy_data c)); try (right; intros [_ Z]; discriminate Z). left. auto. }
              destruct Z as [[Z1 Z2]|Z]; [left; exists d, r, i, j, c; auto|]. right. intros d' (r' & i' & j' & c' & E' & D' & KD & C2 & KC). apply Z.
              change ([i; j]) with ([i] ++ [j]) in E'. change ([i'; j']) with ([i'] ++ [j']) in E'. rewrite !app_assoc in E'. apply app_inj_tail in E' as [E' _]. apply app_inj_tail in E' as [-> ->].
              unfold sym_at in *. split; congruence. }
          cbn [snd]. destruct DEC as [(d & D)|D].
          - right. exists q, m, d. rewrite (H1 d D). auto 8.
          - destruct (H2 D) as [->|(q' & m' & d & L' & REST)]; [auto|]. right. exists q', m', d. split; [exact (path_lt_trans _ _ _ L' LQ)|exact REST]. }
        destruct (rev (above_in sy_kids doc p ++ [n])) as [|x [|c [|d l]]].
        -- split; [|auto]. intros d (r & i & j & c & E' & D & _). destruct SC. exists r, i, j, d. auto.
        -- split; [|auto]. intros d (r & i & j & c & E' & D & _). destruct SC. exists r, i, j, d. auto.
        -- split; [|auto]. intros d (r & i & j & c' & E' & D & _). destruct SC. exists r, i, j, d. auto.
        -- destruct SC as (r & i & j & EP & D & C').
           assert (Z : (sy_kind (sy_data d) = KClassTypeDesignator /\ sy_kind (sy_data c) = KClass) \/
             (match sy_kind (sy_data c), sy_kind (sy_data d) with KClass, KClassTypeDesignator => Some d | _, _ => snd st end = snd st /\ ~ (sy_kind (sy_data d) = KClassTypeDesignator /\ sy_kind (sy_data c) = KClass))).
           { destruct (sy_kind (sy_data c)); try (right; split; [reflexivity|intros [_ Z]; discriminate Z]). destruct (sy_kind (sy_data d)); try (right; split; [reflexivity|intros [Z _]; discriminate Z]). left. auto. }
           destruct Z as [[Z1 Z2]|[-> Z]].
           ++ rewrite Z1, Z2. assert (AN : anonymous_class_arguments doc p d) by (exists r, i, j, c; auto). split.
              ** intros d' AN'. f_equal. eapply anonymous_unique; eauto.
              ** intros NO. destruct (NO d AN).
           ++ split; [|auto]. intros d' (r' & i' & j' & c' & E' & D' & KD & C2 & KC). destruct Z.
              rewrite EP in E'. change ([i; j]) with ([i] ++ [j]) in E'. change ([i'; j']) with ([i'] ++ [j']) in E'. rewrite !app_assoc in E'. apply app_inj_tail in E' as [E' _]. apply app_inj_tail in E' as [-> ->].
              unfold sym_at in *. split; congruence.
    + rewrite KEEP by exact NO. destruct st as [[m|] callee]; [|exact IH]. destruct IH as (q & sp' & a' & I & AQ & KM & CM & L & H).
      exists q, sp', a'. split; [apply in_app_iff; auto|]. split; [exact AQ|]. split; [exact KM|]. split; [exact CM|]. split; [|exact H].
      intros q' m' sp2 a2 J KJ CJ. apply in_app_iff in J as [J|[J|[]]]; [eauto|]. injection J as <- <- <- <-. destruct (NO KJ CJ).
Qed.
Lemma callee_spec : forall a callee, ArgumentListAndFunctionCallAt doc pos = (Some a, callee) ->
  exists p, sym_at doc p a /\ sy_kind (sy_data a) = KArgumentList /\ contains a pos
  /\ (forall d, anonymous_class_arguments doc p d -> callee = Some d)
  /\ ((forall d, ~ anonymous_class_arguments doc p d) -> callee = HasTypesBeforePos doc (start_of a) \/
       exists q m d, path_lt q p /\ sym_at doc q m /\ sy_kind (sy_data m) = KArgumentList /\ contains m pos /\ anonymous_class_arguments doc q d /\ callee = Some d).
Proof.
  intros a callee E. unfold ArgumentListAndFunctionCallAt in E. destruct (document_good _ (arg_list_fn pos) doc (None, None)) as (L & _ & R & G). rewrite R in E.
  assert (RC := replay_callee L). specialize (RC ltac:(intros p n sp x I; destruct (sl_calls _ _ _ _ _ G _ _ _ _ I) as (i & q & c & -> & N & AT & -> & _); unfold sym_at; cbn; rewrite N; auto) (sl_sorted _ _ _ _ _ G)).
  destruct (replay (arg_list_fn pos) (map snd L) (None, None)) as [[n|] c]; [|discriminate E].
  destruct RC as (p & _ & _ & _ & AT & K & CT & _ & H1 & H2). destruct c as [c|]; injection E as <- <-; exists p; split; [exact AT| |exact AT|]; (split; [exact K|]); (split; [exact CT|]).
  - split; [exact H1|]. intros NO. destruct (H2 NO) as [H|H]; [discriminate H|auto].
  - split; [|left; reflexivity]. intros d D. discriminate (H1 d D).
Qed.
End Callee.
