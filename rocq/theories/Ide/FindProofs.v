(** Finding symbols by position, the outline and the active parameter. *)
From Coq Require Import String.
From Coq Require Import List Bool ZArith Lia Sorting.Sorted.
From Verif Require Import Base.Bytes Base.BytesProofs Base.Protocol Base.SortSearch Text.PositionModel Text.PositionSpec Claims.Positions
  Ide.VariableProofs Ide.TreeModel Ide.TreeSpec Ide.TreeProofs.
Import ListNotations.
Open Scope list_scope.

(** ** The last symbol taken *)
Section Find.
Context {S : Type} (fn : S -> symbol -> list symbol -> S * answer) (proj : S -> option symbol) (take : symbol -> bool) (ans : symbol -> answer) (s0 : S).
Hypothesis fn_take : forall st n sp, proj (fst (fn st n sp)) = if take n then Some n else proj st.
Hypothesis fn_ans : forall st n sp, snd (fn st n sp) = ans n.
Hypothesis s0_none : proj s0 = None.

Lemma replay_last : forall E, StronglySorted path_lt (map fst E) ->
  match proj (replay fn (map snd E) s0) with
  | Some n => exists p sp a, In (p, (n, sp, a)) E /\ take n = true /\ forall q m sp' a', In (q, (m, sp', a')) E -> take m = true -> q = p \/ path_lt q p
  | None => forall q m sp a, In (q, (m, sp, a)) E -> take m = false
  end.
Proof.
  intros E. induction E as [|[p [[n sp] a]] E IH] using rev_ind; intros SO.
  - cbn. rewrite s0_none. intros q m sp a [].
  - rewrite map_app in SO. assert (S1 : StronglySorted path_lt (map fst E) /\ forall x, In x (map fst E) -> path_lt x p).
    { clear -SO. induction (map fst E) as [|y l IH]; [split; [constructor|intros x []]|]. cbn in SO. inversion SO; subst. destruct (IH H1) as [A B']. split.
      - constructor; [exact A|]. apply Forall_app in H2 as [H2 _]. exact H2.
      - intros x [<-|I]; [|auto]. apply Forall_app in H2 as [_ H2]. inversion H2; assumption. }
    destruct S1 as [S1 LT]. specialize (IH S1). rewrite map_app. cbn [map snd]. rewrite replay_app. unfold replay at 1. cbn [fold_left fst snd]. rewrite fn_take. fold (replay fn (map snd E) s0).
    destruct (take n) eqn:T.
    + exists p, sp, a. split; [apply in_app_iff; right; left; reflexivity|]. split; [exact T|]. intros q m sp' a' I TM. apply in_app_iff in I as [I|[I|[]]]; [|injection I as <- _ _ _; auto].
      right. apply LT. apply (in_map fst) in I. exact I.
    + destruct (proj (replay fn (map snd E) s0)) as [n'|].
      * destruct IH as (p' & sp' & a' & I & T' & L). exists p', sp', a'. split; [apply in_app_iff; auto|]. split; [exact T'|]. intros q m sp2 a2 J TM.
        apply in_app_iff in J as [J|[J|[]]]; [eauto|]. injection J as <- <- <- <-. congruence.
      * intros q m sp' a' J. apply in_app_iff in J as [J|[J|[]]]; [eauto|]. injection J as <- <- <- <-. exact T.
Qed.

Variable doc : list symbol.
Variable pos : position.
Hypothesis ordered_doc : starts_ordered doc.
(** the walk only stops at symbols that start after the position *)
Hypothesis stop_after : forall t, ans t = ShouldStop -> before pos (start_of t).

Lemma in_forest_prefix : forall (d : list symbol) q i r s, in_forest sy_kids d (q ++ i :: r) = Some s -> q <> [] -> exists t, in_forest sy_kids d q = Some t.
Proof.
  assert (A : forall q (t s : symbol) i r, at_path sy_kids t (q ++ i :: r) = Some s -> exists u, at_path sy_kids t q = Some u).
  { induction q as [|j q IH]; intros t s i r E; cbn in *; [eauto|]. destruct (nth_error (sy_kids t) j); [eauto|discriminate E]. }
  intros d [|j q] i r s E NE; [congruence|]. cbn in *. destruct (nth_error d j); [eauto|discriminate E].
Qed.
Lemma visited : forall E p s, sgood_list fn doc 0 [] E -> sym_at doc p s -> at_or_before (start_of s) pos ->
  (forall q t, proper_prefix q p -> sym_at doc q t -> ans t = GoOn) -> exists sp a, In (p, (s, sp, a)) E.
Proof.
  intros E p s G. revert s. remember (length p) as n eqn:LN. revert p LN. induction n as [n IH] using lt_wf_ind. intros p -> s AT ST UP.
  assert (NB : no_stop_before E p).
  { intros q m sp I L. destruct (sl_calls _ _ _ _ _ G _ _ _ _ I) as (i & q' & c & -> & N & A & _ & st & X). rewrite fn_ans in X. apply stop_after in X.
    assert (M : sym_at doc ((0 + i)%nat :: q') m) by (unfold sym_at; cbn; rewrite N; exact A). assert (Y := ordered_doc _ _ _ _ M AT L).
    exact (proj1 (le_lt _ _) (le_trans _ _ _ Y ST) X). }
  unfold sym_at in AT. destruct p as [|i p]; [discriminate AT|]. cbn in AT. destruct (nth_error doc i) as [c|] eqn:N; [|discriminate AT].
  assert (IN : In (i :: p) (map fst E)).
  { apply (sl_all _ _ _ _ _ G i c p N); [congruence|]. split; [|exact NB]. intros r (j & r' & ->).
    assert (F : in_forest sy_kids doc ((i :: r) ++ j :: r') = Some s) by (cbn; rewrite N; exact AT). destruct (in_forest_prefix _ _ _ _ _ F) as (t & T); [discriminate|].
    assert (PP : proper_prefix (i :: r) (i :: r ++ j :: r')) by (exists j, r'; reflexivity).
    destruct (IH (length (i :: r)) ltac:(cbn; rewrite app_length; cbn; lia) (i :: r) eq_refl t T) as (sp & a & I).
    - eapply le_trans; [|exact ST]. apply (ordered_doc (i :: r) (i :: r ++ j :: r') t s T F). apply prefix_lt. exact PP.
    - intros q u (j' & r2 & E2) U. apply (UP q u); [|exact U]. exists j', (r2 ++ j :: r'). rewrite app_comm_cons, E2, <- app_assoc. reflexivity.
    - exists t, sp. destruct (sl_calls _ _ _ _ _ G _ _ _ _ I) as (_ & _ & _ & _ & _ & _ & _ & st & X). rewrite fn_ans in X. rewrite (UP _ t PP T) in X. subst a. exact I. }
  apply in_map_iff in IN as ([q [[m sp] a]] & E1 & I). cbn in E1. subst q. destruct (sl_calls _ _ _ _ _ G _ _ _ _ I) as (i' & q & c' & E2 & N' & A & _). injection E2 as <- <-.
  rewrite N in N'. injection N' as <-. rewrite AT in A. injection A as <-. eauto.
Qed.
Lemma find_spec :
  match proj (traverseDocument fn s0 doc) with
  | Some n => exists p, sym_at doc p n /\ take n = true /\
      (forall q t, sym_at doc q t -> take t = true -> at_or_before (start_of t) pos -> (forall r u, proper_prefix r q -> sym_at doc r u -> ans u = GoOn) -> q = p \/ path_lt q p)
  | None => forall q t, sym_at doc q t -> at_or_before (start_of t) pos -> (forall r u, proper_prefix r q -> sym_at doc r u -> ans u = GoOn) -> take t = false
  end.
Proof.
  destruct (document_good S fn doc s0) as (E & _ & R & G). rewrite R. assert (L := replay_last E (sl_sorted _ _ _ _ _ G)). destruct (proj (replay fn (map snd E) s0)) as [n|].
  - destruct L as (p & sp & a & I & T & L). exists p. split; [|split; [exact T|]].
    + destruct (sl_calls _ _ _ _ _ G _ _ _ _ I) as (i & q & c & -> & N & A & _). unfold sym_at. cbn. rewrite N. exact A.
    + intros q t AT TT ST UP. destruct (visited E q t G AT ST UP) as (sp' & a' & J). eauto.
  - intros q t AT ST UP. destruct (visited E q t G AT ST UP) as (sp' & a' & J). eauto.
Qed.
End Find.

Lemma in_range0 : forall p r, (IsInRange p r =? 0)%Z = true <-> inside p r.
Proof. intros p r. rewrite Z.eqb_eq. apply C28_in_range. Qed.
Lemma in_range_lt : forall p r, (IsInRange p r <? 0)%Z = true <-> before p (r_start r).
Proof. intros p r. rewrite Z.ltb_lt. apply C28_in_range. Qed.
Lemma in_range_gt : forall p r, (0 <? IsInRange p r)%Z = true <-> at_or_before (r_start r) p /\ at_or_before (r_end r) p.
Proof. intros p r. rewrite Z.ltb_lt. destruct (C28_in_range p r) as (_ & _ & X). rewrite <- X. lia. Qed.
Lemma inside_start : forall p r, inside p r -> at_or_before (r_start r) p.
Proof. intros p r H. exact (proj1 H). Qed.

(** ** The outline *)
Definition hoist (c : doc_symbol) : list doc_symbol := if Nat.eqb (ds_kind (ds_data c)) 0 then ds_kids c else [c].
Lemma fold_hoist : forall l acc, fold_left add_doc_symbol l acc = acc ++ flat_map hoist l.
Proof.
  induction l as [|c l IH]; intros acc; cbn [fold_left flat_map]; [rewrite app_nil_r; reflexivity|]. rewrite IH. unfold add_doc_symbol, hoist.
  destruct (Nat.eqb (ds_kind (ds_data c)) 0); [|rewrite <- app_assoc; reflexivity]. destruct (ds_kids c); cbn [length Nat.ltb Nat.leb app]; [reflexivity|]. rewrite <- app_assoc. reflexivity.
Qed.
Definition show (x : list sym_data * sym_data) : list doc_data * doc_data := (map shown (fst x), shown (snd x)).
Lemma flat_map_flat : forall A B C (f : A -> list B) (g : B -> list C) l, flat_map g (flat_map f l) = flat_map (fun x => flat_map g (f x)) l.
Proof. induction l as [|x l IH]; [reflexivity|]. cbn. rewrite flat_map_app, IH. reflexivity. Qed.
Lemma map_flat : forall A B C (f : A -> list B) (g : B -> C) l, map g (flat_map f l) = flat_map (fun x => map g (f x)) l.
Proof. induction l as [|x l IH]; [reflexivity|]. cbn. rewrite map_app, IH. reflexivity. Qed.
Lemma flat_map_ext_in : forall A B (f g : A -> list B) l, (forall x, In x l -> f x = g x) -> flat_map f l = flat_map g l.
Proof. induction l as [|x l IH]; intros H; [reflexivity|]. cbn. rewrite (H x (or_introl eq_refl)), IH by (intros; apply H; right; assumption). reflexivity. Qed.
Lemma flat_map_map : forall A B C (f : A -> B) (g : B -> list C) l, flat_map g (map f l) = flat_map (fun x => g (f x)) l.
Proof. induction l as [|x l IH]; [reflexivity|]. cbn. rewrite IH. reflexivity. Qed.
Lemma outline_symbol : forall s around, flat_map (entries (map shown around)) (hoist (toDocumentSymbolRecursive s)) = map show (declarations around s).
Proof.
  intros s. induction s as [d kids IH] using sym_rect'. intros around. cbn [toDocumentSymbolRecursive declarations]. rewrite fold_hoist. cbn [app].
  assert (K : forall around, flat_map (entries (map shown around)) (flat_map hoist (map toDocumentSymbolRecursive kids)) = map show (flat_map (declarations around) kids)).
  { intros a. rewrite flat_map_map, flat_map_flat, map_flat. apply flat_map_ext_in. intros c I. apply IH. exact I. }
  assert (D : is_declaration (sy_kind d) = true -> symbolToProtocolDocumentSymbol d = shown d /\ Nat.eqb (ds_kind (shown d)) 0 = false).
  { unfold symbolToProtocolDocumentSymbol, shown. destruct (sy_kind d); cbn; try discriminate; auto. }
  assert (N : is_declaration (sy_kind d) = false -> Nat.eqb (ds_kind (symbolToProtocolDocumentSymbol d)) 0 = true).
  { unfold symbolToProtocolDocumentSymbol. destruct (sy_kind d); cbn; try discriminate; auto. }
  unfold hoist at 1. cbn [ds_data ds_kids]. destruct (is_declaration (sy_kind d)).
  - destruct (D eq_refl) as [-> ->]. cbn [flat_map entries map]. rewrite app_nil_r. f_equal. rewrite <- (K (around ++ [d])). rewrite map_app. reflexivity.
  - rewrite (N eq_refl). apply K.
Qed.
Lemma outline_document : forall doc, flat_map (entries []) (documentSymbol doc) = map show (flat_map (declarations []) doc).
Proof.
  intros doc. unfold documentSymbol. rewrite fold_hoist. cbn [app]. rewrite flat_map_map, flat_map_flat, map_flat. apply flat_map_ext_in. intros c _. apply (outline_symbol c []).
Qed.

(** ** The active parameter *)
Lemma search_unique : forall n f k, (k <= n)%nat -> (forall a, (a < k)%nat -> f a = false) -> (forall a, (k <= a < n)%nat -> f a = true) -> sort_search n f = k.
Proof.
  intros n f k L A B'. destruct (sort_search_spec n f) as (LE & P & Q).
  { intros a b AB BN F. destruct (Nat.lt_ge_cases a k) as [H|H]; [rewrite A in F by lia; discriminate F|]. apply B'. lia. }
  destruct (Nat.lt_trichotomy (sort_search n f) k) as [H|[H|H]]; [|exact H|].
  - rewrite A in Q by lia. specialize (Q ltac:(lia)). discriminate Q.
  - assert (X := P k H). rewrite B' in X by lia. discriminate X.
Qed.
Lemma commas_le : forall commas start e, commas_in start commas e -> le start e /\ (forall c, In c commas -> le start (r_start c) /\ before (r_start c) (r_end c) /\ le (r_end c) e).
Proof.
  induction commas as [|c commas IH]; intros start e H; cbn in *; [split; [exact H|intros c []]|]. destruct H as (A & B' & C). destruct (IH _ _ C) as (D & F).
  assert (G : le start (r_end c)) by (eapply le_trans; [exact A|left; exact B']). split; [eapply le_trans; eauto|]. intros x [<-|I]; [auto|]. destruct (F x I) as (X & Y & Z). split; [eapply le_trans; eauto|auto].
Qed.
Lemma active_started : forall commas start e pos, commas_in start commas e -> before pos e ->
  exists a b, commas = a ++ b /\ ActiveParameter (arg_ranges start commas e) pos = length a
    /\ (forall c, In c a -> at_or_before (r_start c) pos) /\ (forall c, In c b -> before pos (r_start c)).
Proof.
  intros commas start e pos CI PE.
  (** the end of the range number [i] decides *)
  assert (RG : forall commas start, commas_in start commas e -> forall i, (i <= length commas)%nat -> exists s x, nth_error (arg_ranges start commas e) i = Some (Rng s x) /\ le s x /\ x = match nth_error commas i with Some c => r_start c | None => e end).
  { induction commas0 as [|c cs IH]; intros st H i L; cbn in *.
    - destruct i; [|lia]. exists st, e. auto.
    - destruct H as (A & B' & C). destruct i as [|i]; cbn; [exists st, (r_start c); auto|]. apply IH; [exact C|lia]. }
  assert (LEN : forall commas start, length (arg_ranges start commas e) = S (length commas)) by (induction commas0; intros; cbn; [reflexivity|rewrite IHcommas0; reflexivity]).
  assert (PR : forall i, (i <= length commas)%nat -> match nth_error (arg_ranges start commas e) i with Some r => (IsInRange pos r <=? 0)%Z | None => true end = true <-> before pos (match nth_error commas i with Some c => r_start c | None => e end)).
  { intros i L. destruct (RG _ _ CI i L) as (s & x & -> & SX & ->). rewrite Z.leb_le. destruct (C28_in_range pos (Rng s (match nth_error commas i with Some c => r_start c | None => e end))) as (_ & _ & X). cbn [r_start r_end] in X. split.
    - intros H. set (x := match nth_error commas i with Some c => r_start c | None => e end) in *. destruct (before_dec pos x) as [Y|Y]; [exact Y|]. exfalso. assert (IsInRange pos (Rng s x) > 0)%Z; [|lia]. apply X. split; [eapply le_trans; eauto|exact Y].
    - intros H. set (x := match nth_error commas i with Some c => r_start c | None => e end) in *. destruct (Z.le_gt_cases (IsInRange pos (Rng s x)) 0) as [Y|Y]; [exact Y|]. exfalso. assert (Y' : (IsInRange pos (Rng s x) > 0)%Z) by lia. apply X in Y' as [_ Y']. exact (proj1 (le_lt _ _) Y' H). }
  (** split the commas *)
  assert (SPLIT : forall commas start, commas_in start commas e -> exists a b, commas = a ++ b /\ (forall c, In c a -> at_or_before (r_start c) pos) /\ (forall c, In c b -> before pos (r_start c))).
  { clear -PE. induction commas as [|c cs IH]; intros st H; [exists [], []; repeat split; intros c []|]. cbn in H. destruct H as (A & B' & C). destruct (before_dec pos (r_start c)) as [Y|Y].
    - exists [], (c :: cs). split; [reflexivity|]. split; [intros x []|]. intros x [<-|I]; [exact Y|]. destruct (commas_le _ _ _ C) as (_ & F). destruct (F x I) as (Z & _).
      destruct (before_dec pos (r_start x)) as [W|W]; [exact W|]. exfalso. apply (proj1 (le_lt _ _) W). assert (V : le (r_start c) (r_start x)) by (eapply le_trans; [left; exact B'|exact Z]).
      destruct (before_dec pos (r_start x)) as [U|U]; [exact U|]. destruct (proj1 (le_lt (r_start c) pos)); [eapply le_trans; eauto|exact Y].
    - destruct (IH _ C) as (a & b & -> & F & G). exists (c :: a), b. split; [reflexivity|]. split; [|exact G]. intros x [<-|I]; auto. }
  destruct (SPLIT _ _ CI) as (a & b & -> & F & G). exists a, b. split; [reflexivity|]. split; [|auto]. unfold ActiveParameter. rewrite LEN, app_length.
  apply search_unique; [lia| |].
  - intros i L. destruct (match nth_error (arg_ranges start (a ++ b) e) i with Some r => (IsInRange pos r <=? 0)%Z | None => true end) eqn:X; [|reflexivity]. exfalso.
    apply PR in X; [|rewrite app_length; lia]. rewrite nth_error_app1 in X by exact L. destruct (nth_error a i) as [c|] eqn:N; [|apply nth_error_None in N; lia]. apply nth_error_In in N. exact (proj1 (le_lt _ _) (F c N) X).
  - intros i L. apply PR; [rewrite app_length; lia|]. rewrite nth_error_app2 by lia. destruct (nth_error b (i - length a)) as [c|] eqn:N; [|exact PE]. apply nth_error_In in N. auto.
Qed.
