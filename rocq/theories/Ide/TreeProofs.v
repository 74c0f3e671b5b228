(** Walks visit every node once, in order. *)
From Coq Require Import String.
From Coq Require Import List Bool ZArith Lia Sorting.Sorted.
From Verif Require Import Base.Bytes Base.BytesProofs Base.Protocol Base.SortSearch Text.PositionModel Text.PositionSpec
  Ide.TreeModel Ide.TreeSpec.
Import ListNotations.
Open Scope list_scope.

(** ** Order of paths *)
Lemma path_lt_irrefl : forall p, ~ path_lt p p.
Proof. induction p as [|i p IH]; cbn; [tauto|]. intros [H|[_ H]]; [lia|auto]. Qed.
Lemma path_lt_trans : forall p q r, path_lt p q -> path_lt q r -> path_lt p r.
Proof.
  induction p as [|i p IH]; intros [|j q] [|k r] A B'; cbn in *; try tauto. destruct A as [A|[-> A]], B' as [B'|[-> B']]; try (left; lia). right. split; [reflexivity|]. eauto.
Qed.
Lemma path_lt_total : forall p q, path_lt p q \/ p = q \/ path_lt q p.
Proof.
  induction p as [|i p IH]; intros [|j q]; cbn; auto. destruct (Nat.lt_trichotomy i j) as [H|[->|H]]; auto.
  destruct (IH q) as [H|[->|H]]; auto.
Qed.
Lemma prefix_lt : forall q p, proper_prefix q p -> path_lt q p.
Proof. intros q p (i & r & ->). induction q as [|j q IH]; cbn; auto. Qed.

Lemma sorted_app : forall a b, StronglySorted path_lt a -> StronglySorted path_lt b -> (forall x y, In x a -> In y b -> path_lt x y) -> StronglySorted path_lt (a ++ b).
Proof.
  induction a as [|x a IH]; intros b A B' H; [exact B'|]. cbn. inversion A; subst. constructor; [apply IH; auto; intros; apply H; auto; right; assumption|].
  apply Forall_app. split; [assumption|]. apply Forall_forall. intros y Y. apply H; [left; reflexivity|exact Y].
Qed.
Lemma sorted_cons_map : forall i ps, StronglySorted path_lt ps -> StronglySorted path_lt (map (cons i) ps).
Proof.
  intros i ps A. induction A as [|p ps A IH F]; cbn; [constructor|]. constructor; [exact IH|]. apply Forall_forall. intros y Y. apply in_map_iff in Y as (q & <- & Y).
  cbn. right. split; [reflexivity|]. rewrite Forall_forall in F. auto.
Qed.
Lemma sorted_nth : forall ps j k p q, StronglySorted path_lt ps -> (j < k)%nat -> nth_error ps j = Some p -> nth_error ps k = Some q -> path_lt p q.
Proof.
  intros ps. induction ps as [|x ps IH]; intros j k p q A L J K; [destruct j; discriminate J|]. inversion A; subst. destruct k as [|k]; [lia|]. destruct j as [|j]; cbn in *.
  - injection J as ->. rewrite Forall_forall in H2. apply H2. eapply nth_error_In; eauto.
  - eapply (IH j k); eauto. lia.
Qed.

(** ** The syntax tree *)
Section AstInd.
Variable P : ast -> Prop.
Hypothesis HT : forall t o l, P (Token t o l).
Hypothesis HP : forall k kids, (forall c, In c kids -> P c) -> P (Phrase k kids).
Fixpoint ast_rect' (a : ast) : P a :=
  match a with
  | Token t o l => HT t o l
  | Phrase k kids => HP k kids (proj1 (Forall_forall P kids) ((fix go (l : list ast) : Forall P l :=
      match l with [] => Forall_nil P | x :: l => Forall_cons x (ast_rect' x) (go l) end) kids))
  end.
End AstInd.

Lemma traverse_eq : forall S (visit : S -> ast -> list ast -> S * bool) s node spine,
  realTraverse visit s node spine =
  let (s, b) := visit s node spine in
  if b then fold_left (fun s k => realTraverse visit s k (spine ++ [node])) (ast_kids node) s else s.
Proof.
  intros S visit s node spine. destruct node as [k kids|t o l]; cbn [realTraverse ast_kids]; destruct (visit s _ spine) as [s' b]; [|destruct b; reflexivity].
  destruct b; [|reflexivity]. generalize (spine ++ [Phrase k kids]). clear spine. intros spine. revert s'. induction kids as [|c kids IH]; intros s'; [reflexivity|]. cbn [fold_left]. apply IH.
Qed.

Notation entry := (path * (ast * list ast * bool))%type.
Definition replay_v {S : Type} (visit : S -> ast -> list ast -> S * bool) (log : visit_log) (s : S) : S :=
  fold_left (fun s c => fst (visit s (fst (fst c)) (snd (fst c)))) log s.
Lemma replay_v_app : forall S (visit : S -> ast -> list ast -> S * bool) a b s, replay_v visit (a ++ b) s = replay_v visit b (replay_v visit a s).
Proof. intros. apply fold_left_app. Qed.
Record good {S : Type} (visit : S -> ast -> list ast -> S * bool) (node : ast) (spine : list ast) (E : list entry) : Prop := Good {
  g_calls : forall p n sp b, In (p, (n, sp, b)) E -> at_path ast_kids node p = Some n /\ sp = spine ++ above ast_kids node p /\ exists st, snd (visit st n sp) = b;
  g_sorted : StronglySorted path_lt (map fst E);
  g_all : forall p, at_path ast_kids node p <> None -> (In p (map fst E) <-> forall q, proper_prefix q p -> exists n sp, In (q, (n, sp, true)) E) }.
Record good_list {S : Type} (visit : S -> ast -> list ast -> S * bool) (kids : list ast) (k : nat) (spine : list ast) (E : list entry) : Prop := Good_list {
  gl_calls : forall p n sp b, In (p, (n, sp, b)) E -> exists i q c, p = (k + i)%nat :: q /\ nth_error kids i = Some c /\ at_path ast_kids c q = Some n /\ sp = spine ++ above ast_kids c q /\ exists st, snd (visit st n sp) = b;
  gl_sorted : StronglySorted path_lt (map fst E);
  gl_all : forall i c q, nth_error kids i = Some c -> at_path ast_kids c q <> None ->
    (In ((k + i)%nat :: q) (map fst E) <-> forall r, proper_prefix r q -> exists n sp, In ((k + i)%nat :: r, (n, sp, true)) E) }.

Lemma list_good : forall S (visit : S -> ast -> list ast -> S * bool) kids,
  (forall c, In c kids -> forall s log spine, exists E, realTraverse (noting visit) (s, log) c spine = (replay_v visit (map snd E) s, log ++ map snd E) /\ realTraverse visit s c spine = replay_v visit (map snd E) s /\ good visit c spine E) ->
  forall k s log spine, exists E,
  fold_left (fun x c => realTraverse (noting visit) x c spine) kids (s, log) = (replay_v visit (map snd E) s, log ++ map snd E) /\ fold_left (fun s c => realTraverse visit s c spine) kids s = replay_v visit (map snd E) s /\ good_list visit kids k spine E.
Proof.
  intros S visit kids. induction kids as [|c kids IH]; intros H k s log spine.
  - exists []. cbn. rewrite app_nil_r. split; [reflexivity|]. split; [reflexivity|]. constructor; [intros p n sp b []|constructor|intros i c q N; destruct i; discriminate N].
  - cbn [fold_left]. destruct (H c (or_introl eq_refl) s log spine) as (E1 & R1 & R1' & [C1 S1 A1]). rewrite R1, R1'.
    destruct (IH ltac:(intros; apply H; right; assumption) (Datatypes.S k) (replay_v visit (map snd E1) s) (log ++ map snd E1) spine) as (E2 & R2 & R2' & [C2 S2 A2]).
    set (E1' := map (fun e : entry => @pair path _ (k :: fst e) (snd e)) E1).
    assert (M1 : map fst E1' = map (cons k) (map fst E1)) by (unfold E1'; rewrite !map_map; reflexivity).
    assert (M2 : map snd E1' = map snd E1) by (unfold E1'; rewrite map_map; reflexivity).
    assert (IN1 : forall p x, In (p, x) E1' <-> exists q, p = k :: q /\ In (q, x) E1).
    { intros p x. unfold E1'. rewrite in_map_iff. split; [intros ([q y] & E & I); injection E as <- <-; eauto|intros (q & -> & I); exists (q, x); auto]. }
    assert (HD : forall p x, In (p, x) E2 -> exists i q, p = (Datatypes.S k + i)%nat :: q) by (intros p [[n sp] b] I; destruct (C2 _ _ _ _ I) as (i & q & c' & -> & _); eauto).
    exists (E1' ++ E2). rewrite map_app, M2, replay_v_app, app_assoc. split; [exact R2|]. split; [exact R2'|]. constructor.
    + intros p n sp b I. apply in_app_iff in I as [I|I].
      * apply IN1 in I as (q & -> & I). destruct (C1 _ _ _ _ I) as (X & Y & Z). exists 0%nat, q, c. rewrite Nat.add_0_r. auto.
      * destruct (C2 _ _ _ _ I) as (i & q & c' & -> & N & X). exists (Datatypes.S i), q, c'. split; [f_equal; lia|]. auto.
    + rewrite map_app, M1. apply sorted_app; [apply sorted_cons_map; exact S1|exact S2|]. intros x y X Y. apply in_map_iff in X as (q & <- & _). apply in_map_iff in Y as ([p z] & <- & Y).
      destruct (HD _ _ Y) as (i & r & E). cbn. rewrite E. cbn. left. lia.
    + intros [|i] c' q N V; cbn in N.
      * injection N as <-. rewrite Nat.add_0_r. rewrite map_app, M1, in_app_iff.
        assert (X : forall q, In (k :: q) (map fst E2) -> False). { intros r R. apply in_map_iff in R as ([p z] & E & R). destruct (HD _ _ R) as (i & r' & E'). cbn in E. rewrite E' in E. injection E as E _. lia. }
        assert (Y : In (k :: q) (map (cons k) (map fst E1)) <-> In q (map fst E1)). { rewrite in_map_iff. split; [intros (r & E & R); injection E as ->; exact R|intros R; exists q; auto]. }
        rewrite Y, (A1 q V). split.
        -- intros [Q|Q]; [|destruct (X _ Q)]. intros r R. destruct (Q r R) as (n & sp & I). exists n, sp. apply in_app_iff. left. apply IN1. eauto.
        -- intros Q. left. intros r R. destruct (Q r R) as (n & sp & I). exists n, sp. apply in_app_iff in I as [I|I]; [apply IN1 in I as (r' & E & I); injection E as ->; exact I|].
           destruct (X r). apply (in_map fst) in I. exact I.
      * replace (k + Datatypes.S i)%nat with (Datatypes.S k + i)%nat by lia. rewrite map_app, M1, in_app_iff.
        assert (X : forall q, In ((Datatypes.S k + i)%nat :: q) (map (cons k) (map fst E1)) -> False). { intros r R. apply in_map_iff in R as (x & E & R). injection E as E _. lia. }
        rewrite (A2 i c' q N V). split.
        -- intros [Q|Q]; [destruct (X _ Q)|]. intros r R. destruct (Q r R) as (n & sp & I). exists n, sp. apply in_app_iff. right. exact I.
        -- intros Q. right. intros r R. destruct (Q r R) as (n & sp & I). exists n, sp. apply in_app_iff in I as [I|I]; [|exact I]. apply IN1 in I as (r' & E & I). injection E as E _. lia.
Qed.

Definition traversed {S : Type} (visit : S -> ast -> list ast -> S * bool) (node : ast) : Prop := forall s log spine, exists E,
  realTraverse (noting visit) (s, log) node spine = (replay_v visit (map snd E) s, log ++ map snd E) /\ realTraverse visit s node spine = replay_v visit (map snd E) s /\ good visit node spine E.
Lemma traverse_step : forall S (visit : S -> ast -> list ast -> S * bool) node, (forall c, In c (ast_kids node) -> traversed visit c) -> traversed visit node.
Proof.
  intros S visit node H s log spine. rewrite !traverse_eq. unfold noting at 1. cbn [fst snd]. destruct (visit s node spine) as [s' b] eqn:V.
    assert (PRE : forall q p, proper_prefix q p -> p <> []) by (intros q p (i & r & ->) E; destruct q; discriminate E).
    destruct b.
    - destruct (list_good S visit (ast_kids node) H 0 s' (log ++ [(node, spine, true)]) (spine ++ [node])) as (EL & R1 & R1' & [C1 S1 A1]).
      exists (([], (node, spine, true)) :: EL). cbn [map snd]. rewrite <- app_assoc in R1. assert (RP : replay_v visit ((node, spine, true) :: map snd EL) s = replay_v visit (map snd EL) s') by (unfold replay_v; cbn; rewrite V; reflexivity). rewrite RP. split; [exact R1|]. split; [exact R1'|].
      assert (NE : forall x, ~ In ([], x) EL) by (intros [[n sp] b] I; destruct (C1 _ _ _ _ I) as (i & q & c & E & _); discriminate E).
      constructor.
      + intros p n sp b [E|I]; [injection E as <- <- <- <-; cbn; rewrite app_nil_r; repeat split; exists s; rewrite V; reflexivity|]. destruct (C1 _ _ _ _ I) as (i & q & c & -> & N & X & Y & Z). cbn. rewrite N. split; [exact X|]. split; [|exact Z]. rewrite Y, <- app_assoc. reflexivity.
      + cbn [map fst]. constructor; [exact S1|]. apply Forall_forall. intros y Y. apply in_map_iff in Y as ([p x] & <- & Y). destruct p; [destruct (NE _ Y)|exact I].
      + intros p VP. destruct p as [|i p].
        * split; [|intros _; left; reflexivity]. intros _ q Q. destruct (PRE _ _ Q eq_refl).
        * cbn in VP. destruct (nth_error (ast_kids node) i) as [c|] eqn:N; [|congruence]. specialize (A1 i c p N VP). cbn [Nat.add] in A1. split.
          -- intros [E|I] q Q; [discriminate E|]. destruct q as [|j q]; [exists node, spine; left; reflexivity|]. destruct Q as (j' & r & E). injection E as <- ->.
             destruct (proj1 A1 I q) as (n & sp & J); [exists j', r; reflexivity|]. exists n, sp. right. exact J.
          -- intros Q. right. apply A1. intros r (j & r' & ->). destruct (Q (i :: r)) as (n & sp & J); [exists j, r'; reflexivity|]. destruct J as [E|J]; [discriminate E|]. eauto.
    - exists [([], (node, spine, false))]. cbn. rewrite V. split; [reflexivity|]. split; [reflexivity|]. constructor.
      + intros p n sp b [E|[]]. injection E as <- <- <- <-. cbn. rewrite app_nil_r. repeat split. exists s. rewrite V. reflexivity.
      + cbn. constructor; constructor.
      + intros p VP. destruct p as [|i p].
        * split; [|intros _; left; reflexivity]. intros _ q Q. destruct (PRE _ _ Q eq_refl).
        * split; [intros [E|[]]; discriminate E|]. intros Q. destruct (Q []) as (n & sp & [E|[]]); [exists i, p; reflexivity|discriminate E].
Qed.
Lemma traverse_good : forall S (visit : S -> ast -> list ast -> S * bool) node, traversed visit node.
Proof.
  intros S visit node. induction node as [t o l|k kids IH] using ast_rect'; apply traverse_step; [intros c []|exact IH].
Qed.

(** ** Symbols *)
Section SymInd.
Variable P : symbol -> Prop.
Hypothesis HP : forall d kids, (forall c, In c kids -> P c) -> P (Sym d kids).
Fixpoint sym_rect' (s : symbol) : P s :=
  match s with
  | Sym d kids => HP d kids (proj1 (Forall_forall P kids) ((fix go (l : list symbol) : Forall P l :=
      match l with [] => Forall_nil P | x :: l => Forall_cons x (sym_rect' x) (go l) end) kids))
  end.
End SymInd.

Lemma block_eq : forall S (fn : S -> symbol -> list symbol -> S * answer) w s spine,
  traverseBlock fn w s spine =
  let w := call fn w s spine in
  if w_stop w then w
  else let w := if w_skip w then w else traverse_each fn w spine (sy_kids s) in Walk (w_state w) (w_stop w) false.
Proof.
  intros S fn w s spine. destruct s as [d kids]. cbn [traverseBlock sy_kids]. destruct (w_stop (call fn w (Sym d kids) spine)); [reflexivity|]. generalize (call fn w (Sym d kids) spine). intros w'.
  destruct (w_skip w'); [reflexivity|]. cbv zeta. assert (E : forall w', (fix each (w : walk S) (kids : list symbol) : walk S := match kids with [] => w | k :: kids => let w := traverseBlock fn w k (spine ++ [k]) in if w_stop w then w else each w kids end) w' kids = traverse_each fn w' spine kids).
  { induction kids as [|c kids IH]; intros x; [reflexivity|]. cbn [traverse_each]. cbv zeta. destruct (w_stop (traverseBlock fn x c (spine ++ [c]))); [reflexivity|]. apply IH. }
  rewrite E. reflexivity.
Qed.

Lemma block_eq2 : forall S (fn : S -> symbol -> list symbol -> S * answer) st s spine,
  traverseBlock fn (Walk st false false) s spine =
  match fn st s spine with
  | (st', GoOn) => Walk (w_state (traverse_each fn (Walk st' false false) spine (sy_kids s))) (w_stop (traverse_each fn (Walk st' false false) spine (sy_kids s))) false
  | (st', StopDescent) => Walk st' false false
  | (st', ShouldStop) => Walk st' true false
  end.
Proof. intros S fn st s spine. rewrite block_eq. unfold call. cbn [w_state w_stop w_skip]. destruct (fn st s spine) as [st' []]; reflexivity. Qed.

Notation sentry := (path * (symbol * list symbol * answer))%type.
Definition replay {S : Type} (fn : S -> symbol -> list symbol -> S * answer) (log : call_log) (s : S) : S :=
  fold_left (fun s c => fst (fn s (fst (fst c)) (snd (fst c)))) log s.
Definition stopped (E : list sentry) : Prop := exists p n sp, In (p, (n, sp, ShouldStop)) E.
Definition no_stop_before (E : list sentry) (p : path) : Prop := forall q n sp, In (q, (n, sp, ShouldStop)) E -> ~ path_lt q p.
Definition went_below (E : list sentry) (q : path) : Prop := exists n sp, In (q, (n, sp, GoOn)) E.
Record sgood {S : Type} (fn : S -> symbol -> list symbol -> S * answer) (node : symbol) (spine : list symbol) (E : list sentry) : Prop := Sgood {
  sg_calls : forall p n sp a, In (p, (n, sp, a)) E -> at_path sy_kids node p = Some n /\ sp = (spine ++ above sy_kids node p) ++ [n] /\ exists st, snd (fn st n sp) = a;
  sg_sorted : StronglySorted path_lt (map fst E);
  sg_all : forall p, at_path sy_kids node p <> None -> (In p (map fst E) <-> (forall q, proper_prefix q p -> went_below E q) /\ no_stop_before E p) }.
Record sgood_list {S : Type} (fn : S -> symbol -> list symbol -> S * answer) (kids : list symbol) (k : nat) (spine : list symbol) (E : list sentry) : Prop := Sgood_list {
  sl_calls : forall p n sp a, In (p, (n, sp, a)) E -> exists i q c, p = (k + i)%nat :: q /\ nth_error kids i = Some c /\ at_path sy_kids c q = Some n /\ sp = (spine ++ above sy_kids c q) ++ [n] /\ exists st, snd (fn st n sp) = a;
  sl_sorted : StronglySorted path_lt (map fst E);
  sl_all : forall i c q, nth_error kids i = Some c -> at_path sy_kids c q <> None ->
    (In ((k + i)%nat :: q) (map fst E) <-> (forall r, proper_prefix r q -> went_below E ((k + i)%nat :: r)) /\ no_stop_before E ((k + i)%nat :: q)) }.
Definition swalked {S : Type} (fn : S -> symbol -> list symbol -> S * answer) (node : symbol) : Prop := forall s log spine, exists E stop,
  traverseBlock (noting_calls fn) (Walk (s, log) false false) node (spine ++ [node]) = Walk (replay fn (map snd E) s, log ++ map snd E) stop false
  /\ traverseBlock fn (Walk s false false) node (spine ++ [node]) = Walk (replay fn (map snd E) s) stop false
  /\ (stop = true <-> stopped E) /\ sgood fn node spine E.
Lemma replay_app : forall S (fn : S -> symbol -> list symbol -> S * answer) a b s, replay fn (a ++ b) s = replay fn b (replay fn a s).
Proof. intros. apply fold_left_app. Qed.

Lemma slist_good : forall S (fn : S -> symbol -> list symbol -> S * answer) kids, (forall c, In c kids -> swalked fn c) ->
  forall k s log spine, exists E stop,
  traverse_each (noting_calls fn) (Walk (s, log) false false) spine kids = Walk (replay fn (map snd E) s, log ++ map snd E) stop false
  /\ traverse_each fn (Walk s false false) spine kids = Walk (replay fn (map snd E) s) stop false
  /\ (stop = true <-> stopped E) /\ sgood_list fn kids k spine E.
Proof.
  intros S fn kids. induction kids as [|c kids IH]; intros H k s log spine.
  - exists [], false. cbn. rewrite app_nil_r. split; [reflexivity|]. split; [reflexivity|]. split; [split; [discriminate|intros (p & n & sp & [])]|].
    constructor; [intros p n sp b []|constructor|intros i c q N; destruct i; discriminate N].
  - cbn [traverse_each]. destruct (H c (or_introl eq_refl) s log spine) as (E1 & stop1 & R1 & R1' & ST1 & [C1 S1 A1]). cbv zeta.
    rewrite R1, R1'. cbn [w_stop].
    set (E1' := map (fun e : sentry => @pair path _ (k :: fst e) (snd e)) E1).
    assert (M1 : map fst E1' = map (cons k) (map fst E1)) by (unfold E1'; rewrite !map_map; reflexivity).
    assert (M2 : map snd E1' = map snd E1) by (unfold E1'; rewrite map_map; reflexivity).
    assert (IN1 : forall p x, In (p, x) E1' <-> exists q, p = k :: q /\ In (q, x) E1).
    { intros p x. unfold E1'. rewrite in_map_iff. split; [intros ([q y] & E & I); injection E as <- <-; eauto|intros (q & -> & I); exists (q, x); auto]. }
    assert (Y : forall q, In (k :: q) (map (cons k) (map fst E1)) <-> In q (map fst E1)). { intros q. rewrite in_map_iff. split; [intros (r & E & R); injection E as ->; exact R|intros R; exists q; auto]. }
    assert (X1 : forall i q, In ((k + Datatypes.S i)%nat :: q) (map (cons k) (map fst E1)) -> False). { intros i r R. apply in_map_iff in R as (x & E & R). injection E as E _. lia. }
    destruct stop1.
    + exists E1', true. rewrite M2. split; [reflexivity|]. split; [reflexivity|]. assert (ST : stopped E1). { apply ST1. reflexivity. } split.
      { split; [|reflexivity]. intros _. destruct ST as (p & n & sp & I). exists (k :: p), n, sp. apply IN1. eauto. }
      constructor.
      * intros p n sp b I. apply IN1 in I as (q & -> & I). destruct (C1 _ _ _ _ I) as (X & Z & W). exists 0%nat, q, c. rewrite Nat.add_0_r. auto.
      * rewrite M1. apply sorted_cons_map. exact S1.
      * intros [|i] c' q N V; cbn in N.
        -- injection N as <-. rewrite Nat.add_0_r, M1, Y, (A1 q V). split; intros [Q1 Q2]; split.
           ++ intros r R. destruct (Q1 r R) as (n & sp & I). exists n, sp. apply IN1. eauto.
           ++ intros p n sp I. apply IN1 in I as (p' & -> & I). intros [L|[_ L]]; [lia|]. exact (Q2 _ _ _ I L).
           ++ intros r R. destruct (Q1 r R) as (n & sp & I). apply IN1 in I as (r' & E & I). injection E as ->. exists n, sp. exact I.
           ++ intros p n sp I L. apply (Q2 (k :: p) n sp); [apply IN1; eauto|]. right. auto.
        -- rewrite M1. split; [intros I; destruct (X1 _ _ I)|]. intros [_ Q2]. destruct ST as (p & n & sp & I). exfalso. apply (Q2 (k :: p) n sp); [apply IN1; eauto|]. left. lia.
    + destruct (IH ltac:(intros; apply H; right; assumption) (Datatypes.S k) (replay fn (map snd E1) s) (log ++ map snd E1) spine) as (E2 & stop2 & R2 & R2' & ST2 & [C2 S2 A2]).
      assert (NS : forall p n sp, ~ In (p, (n, sp, ShouldStop)) E1) by (intros p n sp I; assert (false = true) by (apply ST1; exists p, n, sp; exact I); discriminate).
      assert (HD : forall p x, In (p, x) E2 -> exists i q, p = (Datatypes.S k + i)%nat :: q) by (intros p [[n sp] b] I; destruct (C2 _ _ _ _ I) as (i & q & c' & -> & _); eauto).
      exists (E1' ++ E2), stop2. rewrite map_app, M2, replay_app, app_assoc. split; [exact R2|]. split; [exact R2'|]. split.
      { rewrite ST2. unfold stopped. setoid_rewrite in_app_iff. split.
        - intros (p & n & sp & I). exists p, n, sp. auto.
        - intros (p & n & sp & [I|I]); [apply IN1 in I as (q & -> & I); destruct (NS _ _ _ I)|eauto]. }
      constructor.
      * intros p n sp b I. apply in_app_iff in I as [I|I].
        -- apply IN1 in I as (q & -> & I). destruct (C1 _ _ _ _ I) as (X & Z & W). exists 0%nat, q, c. rewrite Nat.add_0_r. auto.
        -- destruct (C2 _ _ _ _ I) as (i & q & c' & -> & N & X). exists (Datatypes.S i), q, c'. split; [f_equal; lia|]. auto.
      * rewrite map_app, M1. apply sorted_app; [apply sorted_cons_map; exact S1|exact S2|]. intros x y X Z. apply in_map_iff in X as (q & <- & _). apply in_map_iff in Z as ([p z] & <- & Z).
        destruct (HD _ _ Z) as (i & r & E). cbn. rewrite E. cbn. left. lia.
      * intros [|i] c' q N V; cbn in N.
        -- injection N as <-. rewrite Nat.add_0_r. rewrite map_app, M1, in_app_iff, Y, (A1 q V).
           assert (X : forall q x, ~ In (k :: q, x) E2). { intros r x R. destruct (HD _ _ R) as (i & r' & E'). injection E' as E' _. lia. }
           assert (X' : forall q, ~ In (k :: q) (map fst E2)). { intros r R. apply in_map_iff in R as ([p z] & E & R). cbn in E. subst p. exact (X _ _ R). }
           split.
           ++ intros [[Q1 Q2]|Q]; [|destruct (X' _ Q)]. split.
              ** intros r R. destruct (Q1 r R) as (n & sp & I). exists n, sp. apply in_app_iff. left. apply IN1. eauto.
              ** intros p n sp I. apply in_app_iff in I as [I|I]; [apply IN1 in I as (p' & -> & I); destruct (NS _ _ _ I)|].
                 destruct (HD _ _ I) as (i & r & ->). cbn. lia.
           ++ intros [Q1 Q2]. left. split; [|intros p n sp I; destruct (NS _ _ _ I)]. intros r R. destruct (Q1 r R) as (n & sp & I). exists n, sp.
              apply in_app_iff in I as [I|I]; [apply IN1 in I as (r' & E & I); injection E as ->; exact I|destruct (X _ _ I)].
        -- rewrite map_app, M1, in_app_iff. specialize (A2 i c' q N V). replace (Datatypes.S k + i)%nat with (k + Datatypes.S i)%nat in A2 by lia. rewrite A2. split.
           ++ intros [Q|[Q1 Q2]]; [destruct (X1 _ _ Q)|]. split.
              ** intros r R. destruct (Q1 r R) as (n & sp & I). exists n, sp. apply in_app_iff. right. exact I.
              ** intros p n sp I. apply in_app_iff in I as [I|I]; [apply IN1 in I as (p' & -> & I); destruct (NS _ _ _ I)|]. exact (Q2 _ _ _ I).
           ++ intros [Q1 Q2]. right. split.
              ** intros r R. destruct (Q1 r R) as (n & sp & I). exists n, sp. apply in_app_iff in I as [I|I]; [|exact I]. apply IN1 in I as (r' & E & I). injection E as E _. lia.
              ** intros p n sp I. apply (Q2 p n sp). apply in_app_iff. right. exact I.
Qed.

Lemma swalk_step : forall S (fn : S -> symbol -> list symbol -> S * answer) node, (forall c, In c (sy_kids node) -> swalked fn c) -> swalked fn node.
Proof.
  intros S fn node H s log spine. rewrite !block_eq2. unfold noting_calls at 1. cbn [fst snd].
  assert (PRE : forall q p, proper_prefix q p -> p <> []) by (intros q p (i & r & ->) E; destruct q; discriminate E).
  destruct (fn s node (spine ++ [node])) as [s' a] eqn:V.
  assert (ONE : forall E, E = [([], (node, spine ++ [node], a))] -> a <> GoOn -> sgood fn node spine E).
  { intros E -> NG. constructor.
    + intros p n sp b [E|[]]. injection E as <- <- <- <-. cbn. rewrite app_nil_r. repeat split. exists s. rewrite V. reflexivity.
    + cbn. constructor; constructor.
    + intros p VP. destruct p as [|i p].
      * split; [|intros _; left; reflexivity]. intros _. split; [intros q Q; destruct (PRE _ _ Q eq_refl)|]. intros q n sp _. destruct q; cbn; auto.
      * split; [intros [E|[]]; discriminate E|]. intros [Q _]. destruct (Q []) as (n & sp & [E|[]]); [exists i, p; reflexivity|]. injection E as _ _ E. contradiction. }
  destruct a.
  - destruct (slist_good S fn (sy_kids node) H 0 s' (log ++ [(node, spine ++ [node], GoOn)]) (spine ++ [node])) as (EL & stop & R1 & R2 & ST & [C1 S1 A1]). rewrite R1, R2.
    exists (([], (node, spine ++ [node], GoOn)) :: EL), stop. cbn [map snd w_state w_stop]. assert (RP : replay fn ((node, spine ++ [node], GoOn) :: map snd EL) s = replay fn (map snd EL) s') by (unfold replay; cbn; rewrite V; reflexivity).
    rewrite RP. rewrite <- app_assoc. split; [reflexivity|]. split; [reflexivity|]. split.
    { rewrite ST. unfold stopped. split; [intros (p & n & sp & I); exists p, n, sp; right; exact I|]. intros (p & n & sp & [E|I]); [discriminate E|eauto]. }
    assert (NE : forall x, ~ In ([], x) EL) by (intros [[n sp] b] I; destruct (C1 _ _ _ _ I) as (i & q & c & E & _); discriminate E).
    constructor.
    + intros p n sp b [E|I]; [injection E as <- <- <- <-; cbn; rewrite app_nil_r; repeat split; exists s; rewrite V; reflexivity|].
      destruct (C1 _ _ _ _ I) as (i & q & c & -> & N & X & Y & W). cbn. rewrite N. split; [exact X|]. split; [|exact W]. rewrite Y, <- app_assoc. cbn. rewrite <- !app_assoc. reflexivity.
    + cbn [map fst]. constructor; [exact S1|]. apply Forall_forall. intros y Y. apply in_map_iff in Y as ([p x] & <- & Y). destruct p; [destruct (NE _ Y)|exact I].
    + intros p VP. destruct p as [|i p].
      * split; [|intros _; left; reflexivity]. intros _. split; [intros q Q; destruct (PRE _ _ Q eq_refl)|]. intros q n sp _. destruct q; cbn; auto.
      * cbn in VP. destruct (nth_error (sy_kids node) i) as [c|] eqn:N; [|congruence]. specialize (A1 i c p N VP). cbn [Nat.add] in A1. split.
        -- intros [E|I]; [discriminate E|]. apply A1 in I as [Q1 Q2]. split.
           ++ intros q Q. destruct q as [|j q]; [exists node, (spine ++ [node]); left; reflexivity|]. destruct Q as (j' & r & E). injection E as <- ->.
              destruct (Q1 q) as (n & sp & J); [exists j', r; reflexivity|]. exists n, sp. right. exact J.
           ++ intros q n sp [E|I]; [discriminate E|]. exact (Q2 _ _ _ I).
        -- intros [Q1 Q2]. right. apply A1. split.
           ++ intros r (j & r' & ->). destruct (Q1 (i :: r)) as (n & sp & J); [exists j, r'; reflexivity|]. destruct J as [E|J]; [discriminate E|]. exists n, sp. exact J.
           ++ intros q n sp I. apply (Q2 q n sp). right. exact I.
  - exists [([], (node, spine ++ [node], StopDescent))], false. cbn. rewrite V. split; [reflexivity|]. split; [reflexivity|]. split; [|apply ONE; [reflexivity|discriminate]].
    split; [discriminate|]. intros (p & n & sp & [E|[]]). discriminate E.
  - exists [([], (node, spine ++ [node], ShouldStop))], true. cbn. rewrite V. split; [reflexivity|]. split; [reflexivity|]. split; [|apply ONE; [reflexivity|discriminate]].
    split; [|reflexivity]. intros _. exists [], node, (spine ++ [node]). left. reflexivity.
Qed.
Lemma swalk_good : forall S (fn : S -> symbol -> list symbol -> S * answer) node, swalked fn node.
Proof. intros S fn node. induction node as [d kids IH] using sym_rect'. apply swalk_step. exact IH. Qed.

(** a whole document *)
Lemma document_good : forall S (fn : S -> symbol -> list symbol -> S * answer) doc s, exists E,
  traverseDocument (noting_calls fn) (s, []) doc = (traverseDocument fn s doc, map snd E)
  /\ traverseDocument fn s doc = replay fn (map snd E) s /\ sgood_list fn doc 0 [] E.
Proof.
  intros S fn doc s. destruct (slist_good S fn doc (fun c _ => swalk_good S fn c) 0 s [] []) as (E & stop & R1 & R2 & _ & G). exists E. unfold traverseDocument. rewrite R1, R2. auto.
Qed.
