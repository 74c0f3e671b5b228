(** Claims about variables, positions in a document, the outline, signature
    help and walking trees. *)
From Coq Require Import String.
From Coq Require Import List Bool ZArith Lia Permutation Sorting.Sorted.
From Verif Require Import Base.Bytes Base.BytesProofs Base.Protocol Base.SortSearch Text.PositionModel Text.PositionSpec Claims.Positions
  Ide.VariableModel Ide.VariableSpec Ide.VariableProofs Ide.UnusedProofs Ide.TreeModel Ide.TreeSpec Ide.TreeProofs Ide.FindProofs Ide.EventProofs.
Import ListNotations.
Open Scope list_scope.

(** ** C40 variable lookup *)
(** In a table that recorded any occurrences in any order, looking up a name at
    a position finds the latest occurrence that starts at or before it. *)
Theorem C40_lookup_latest : forall occs name pos v,
  table_get (table_of occs) name pos = Some v <->
  exists o, latest occs name (fun start => at_or_before start pos) o /\ oc_var o = v.
Proof.
  intros occs name pos v. rewrite get_look by apply of_ok. set (ok := fun s => negb (ComparePos pos s <? 0)%Z).
  assert (OK : forall s, ok s = true <-> at_or_before s pos).
  { intros s. unfold ok. rewrite negb_true_iff. fold (le s pos). rewrite le_lt, <- compare_lt. destruct (ComparePos pos s <? 0)%Z; intuition congruence. }
  assert (EXT : forall o, latest occs name (fun p => ok p = true) o <-> latest occs name (fun start => at_or_before start pos) o).
  { intros o. unfold latest. setoid_rewrite OK. reflexivity. }
  assert (L := look_latest ok occs name). destruct (look (table_of occs) name ok) as [[[v' s'] d']|] eqn:E; cbn [option_map fst].
  - split; [intros H; injection H as <-; exists (Occ v' s' d'); split; [apply EXT; exact L|reflexivity]|]. intros (o & H & <-). apply EXT in H. rewrite (latest_unique _ _ _ _ _ H L). reflexivity.
  - split; [discriminate|]. intros (o & H & <-). apply EXT in H as (a & b & -> & N & K & _). rewrite (L o) in K by (auto; apply in_elt). discriminate K.
Qed.
Print Assumptions C40_lookup_latest.

(** Nothing is found exactly when no occurrence of the name starts at or before
    the position. *)
Theorem C40_lookup_nothing : forall occs name pos,
  table_get (table_of occs) name pos = None <->
  forall o, In o occs -> oc_name o = name -> ~ at_or_before (oc_start o) pos.
Proof.
  intros occs name pos. rewrite get_look by apply of_ok. set (ok := fun s => negb (ComparePos pos s <? 0)%Z).
  assert (OK : forall s, ok s = true <-> at_or_before s pos).
  { intros s. unfold ok. rewrite negb_true_iff. fold (le s pos). rewrite le_lt, <- compare_lt. destruct (ComparePos pos s <? 0)%Z; intuition congruence. }
  assert (L := look_latest ok occs name). destruct (look (table_of occs) name ok) as [[[v' s'] d']|] eqn:E; cbn [option_map fst].
  - split; [discriminate|]. intros H. exfalso. destruct L as (a & b & -> & N & K & _). apply OK in K. exact (H _ (in_elt _ a b) N K).
  - split; [|reflexivity]. intros _ o I N K. apply OK in K. rewrite (L o I N) in K. discriminate K.
Qed.
Print Assumptions C40_lookup_nothing.

(** The variables offered at a position: for each name the latest occurrence
    that starts strictly before it. *)
Theorem C40_variables_offered : forall occs pos v,
  In v (GetVariables (table_of occs) pos) <->
  exists o, latest occs (v_name v) (fun start => before start pos) o /\ oc_var o = v.
Proof.
  intros occs pos v. rewrite variables_look by apply of_ok. set (ok := fun s => negb (0 <=? ComparePos s pos)%Z).
  assert (OK : forall s, ok s = true <-> before s pos).
  { intros s. unfold ok. rewrite negb_true_iff. destruct (0 <=? ComparePos s pos)%Z eqn:E.
    - apply compare_ge in E. split; [discriminate|]. intros B'. destruct (proj1 (le_lt _ _) E B').
    - split; [|reflexivity]. intros _. destruct (before_dec s pos) as [B'|B']; [exact B'|]. apply compare_ge in B'. congruence. }
  assert (EXT : forall name o, latest occs name (fun p => ok p = true) o <-> latest occs name (fun start => before start pos) o).
  { intros name o. unfold latest. setoid_rewrite OK. reflexivity. }
  split.
  - intros (name & s & d & E). assert (L := look_latest ok occs name). rewrite E in L. assert (N : v_name v = name) by (destruct L as (a & b & _ & N & _); exact N). subst name.
    exists (Occ v s d). split; [apply EXT; exact L|reflexivity].
  - intros (o & H & <-). apply EXT in H. exists (v_name (oc_var o)). assert (L := look_latest ok occs (v_name (oc_var o))). destruct (look (table_of occs) (v_name (oc_var o)) ok) as [[[v' s'] d']|].
    + rewrite (latest_unique _ _ _ _ _ H L). eauto.
    + destruct H as (a & b & -> & N & K & _). rewrite (L o (in_elt _ a b) N) in K. discriminate K.
Qed.
Print Assumptions C40_variables_offered.

Definition pos_at (l c : Z) : position := Pos l c.
Definition var_at (n : string) (l c : Z) : variable := MkVar (B n) (Rng (Pos l c) (Pos l (c + 2))).
(** a first assignment, a use and a second assignment recorded out of order *)
Definition some_occs : list occurrence :=
  [Occ (var_at "$a" 1 0) (Pos 1 8) true; Occ (var_at "$a" 5 0) (Pos 5 8) true; Occ (var_at "$a" 3 4) (Pos 3 6) false; Occ (var_at "$b" 3 0) (Pos 3 8) true].
Example C40_example :
  table_get (table_of some_occs) (B "$a") (Pos 4 0) = Some (var_at "$a" 3 4)
  /\ table_get (table_of some_occs) (B "$a") (Pos 1 7) = None
  /\ GetVariables (table_of some_occs) (Pos 3 8) = [var_at "$a" 3 4].
Proof. vm_compute. repeat split; reflexivity. Qed.

(** ** C41 unused variables *)
(** Full statement: for every balanced sequence of scopes, declarations, uses
    and captures, the variables reported as unused are the declarations after
    which no use of the name was recorded in the same scope. Proved when uses
    are recorded in document order. *)
Theorem C41_unused_partial : forall root ops,
  balanced 0 ops -> in_order (scoped 1 [0%nat] ops) ->
  Permutation (UnusedVariables (LoadTables root ops)) (unread (scoped 1 [0%nat] ops)).
Proof. exact unused_scoped. Qed.
Print Assumptions C41_unused_partial.

Definition whole : range := Rng (Pos 0 0) (Pos 99 0).
Definition closure_doc : list var_op :=
  [RecordVar (var_at "$a" 1 0) (Pos 1 8) true; RecordVar (var_at "$b" 2 0) (Pos 2 8) true;
   OpenScope (Rng (Pos 3 0) (Pos 6 0)); Capture (var_at "$a" 3 20); RecordVar (var_at "$b" 4 0) (Pos 4 8) true; RecordVar (var_at "$c" 5 0) (Pos 5 8) true;
   RecordVar (var_at "$c" 5 10) (Pos 5 12) false; CloseScope; RecordVar (var_at "$d" 7 0) (Pos 7 8) true].
Example C41_hypotheses_met : balanced 0 closure_doc /\ in_order (scoped 1 [0%nat] closure_doc)
  /\ UnusedVariables (LoadTables whole closure_doc) = [var_at "$b" 2 0; var_at "$d" 7 0; var_at "$a" 3 20; var_at "$b" 4 0].
Proof.
  split; [exact eq_refl|]. split; [|vm_compute; reflexivity]. intros a s u b E D o I N. cbn in E.
  repeat (destruct a as [|? a]; cbn in E; [injection E as E1 E2 E3; subst; try discriminate D; cbn in I; repeat (destruct I as [I|I]; [inversion I; subst; try discriminate N; unfold before; cbn; lia|]); destruct I|]; injection E as ? E; subst); destruct a; discriminate E.
Qed.

(** A use that is recorded although it lies before a declaration keeps the
    declarations that follow from being marked: here the second declaration of
    $a is used later but reported, because an earlier recorded one stands
    behind the use. *)
Theorem C41_out_of_order_refuted : exists ops, balanced 0 ops /\
  In (var_at "$a" 1 0) (UnusedVariables (LoadTables whole ops)) /\ ~ In (var_at "$a" 1 0) (unread (scoped 1 [0%nat] ops)).
Proof.
  exists [RecordVar (var_at "$a" 1 0) (Pos 1 8) true; RecordVar (var_at "$a" 5 0) (Pos 1 4) true; RecordVar (var_at "$a" 3 4) (Pos 3 6) false].
  split; [reflexivity|]. split; [vm_compute; auto|]. vm_compute. intros [].
Qed.
Print Assumptions C41_out_of_order_refuted.

(** ** C53 walking trees *)
(** A walk of a syntax tree calls the visitor in document order, once for
    every node such that the visitor wanted to go below all nodes above it, and
    shows it the node and the nodes above it. *)
Theorem C53_syntax_tree_walk : forall S (visit : S -> ast -> list ast -> S * bool) s root, exists ps log,
  Traverse (noting visit) (s, []) root = (Traverse visit s root, log)
  /\ calls_at root ps log /\ StronglySorted path_lt ps
  /\ forall p, at_path ast_kids root p <> None -> (In p ps <-> forall q, proper_prefix q p -> entered ps log q).
Proof.
  intros S visit s root. destruct (traverse_good S visit root s [] []) as (E & R & R' & [C O A]). exists (map fst E), (map snd E). unfold Traverse. rewrite R, R'. split; [reflexivity|]. split; [|split; [exact O|]].
  - clear -C. unfold calls_at. induction E as [|[p [[n sp] b]] E IH]; cbn; constructor.
    + destruct (C p n sp b (or_introl eq_refl)) as (X & Y & _). cbn in *. auto.
    + apply IH. intros; apply C. right. assumption.
  - intros p V. rewrite (A p V). assert (EN : forall q, entered (map fst E) (map snd E) q <-> exists n sp, In (q, (n, sp, true)) E).
    { intros q. unfold entered. split.
      - intros (k & [[n sp] b] & X & Y & Z). cbn in Z. subst b. rewrite nth_error_map in X, Y. destruct (nth_error E k) as [[q' c]|] eqn:N; [|discriminate X]. cbn in X, Y. injection X as ->. injection Y as ->. apply nth_error_In in N. eauto.
      - intros (n & sp & I). apply In_nth_error in I as (k & N). exists k, (n, sp, true). rewrite !nth_error_map, N. auto. }
    setoid_rewrite EN. reflexivity.
Qed.
Print Assumptions C53_syntax_tree_walk.

(** The same for the symbols of a document; the walk ends at the first symbol
    whose answer is to stop. *)
Theorem C53_symbol_walk : forall S (fn : S -> symbol -> list symbol -> S * answer) s doc, exists ps log,
  traverseDocument (noting_calls fn) (s, []) doc = (traverseDocument fn s doc, log)
  /\ symbol_calls_at doc ps log /\ StronglySorted path_lt ps
  /\ forall p, in_forest sy_kids doc p <> None ->
     (In p ps <-> (forall q, proper_prefix q p -> q <> [] -> answered ps log q GoOn) /\ (forall q, path_lt q p -> ~ answered ps log q ShouldStop)).
Proof.
  intros S fn s doc. destruct (document_good S fn doc s) as (E & R & _ & [C O A]). exists (map fst E), (map snd E). split; [exact R|]. split; [|split; [exact O|]].
  - clear -C. unfold symbol_calls_at. induction E as [|[p [[n sp] b]] E IH]; cbn; constructor.
    + destruct (C p n sp b (or_introl eq_refl)) as (i & q & c & -> & N & X & Y & _). cbn in *. rewrite N. auto.
    + apply IH. intros; eapply C; right; eassumption.
  - assert (EN : forall q a, answered (map fst E) (map snd E) q a <-> exists n sp, In (q, (n, sp, a)) E).
    { intros q a. unfold answered. split.
      - intros (k & [[n sp] b] & X & Y & Z). cbn in Z. subst b. rewrite nth_error_map in X, Y. destruct (nth_error E k) as [[q' c]|] eqn:N; [|discriminate X]. cbn in X, Y. injection X as ->. injection Y as ->. apply nth_error_In in N. eauto.
      - intros (n & sp & I). apply In_nth_error in I as (k & N). exists k, (n, sp, a). rewrite !nth_error_map, N. auto. }
    setoid_rewrite EN. intros [|i p] V; [cbn in V; congruence|]. cbn in V. destruct (nth_error doc i) as [c|] eqn:N; [|congruence]. specialize (A i c p N V). cbn [Nat.add] in A. rewrite A. split; intros [Q1 Q2]; split.
    + intros q (j & r & EQ) NE. destruct q as [|i' q]; [congruence|]. injection EQ as <- ->. apply Q1. exists j, r. reflexivity.
    + intros q L (n & sp & I). exact (Q2 q n sp I L).
    + intros r (j & r' & ->). apply Q1; [exists j, r'; reflexivity|discriminate].
    + intros q n sp I L. apply (Q2 q L). eauto.
Qed.
Print Assumptions C53_symbol_walk.

(** The walk that tells its caller about entering and leaving symbols does both
    exactly once for every symbol, in the order of [event_lt]. *)
Theorem C53_enter_and_leave : forall doc, exists ps : list (bool * path),
  Forall2 (fun (t : bool * path) (e : event) => exists s, sym_at doc (snd t) s /\ e = if fst t then Pre s else Post s) ps (TraverseDocument doc)
  /\ StronglySorted event_lt ps /\ forall b p, In (b, p) ps <-> exists s, sym_at doc p s.
Proof. exact document_events. Qed.
Print Assumptions C53_enter_and_leave.

Definition some_tree : ast := Phrase 1 [Phrase 2 [Token 7 0 3; Token 8 3 1]; Phrase 3 [Token 7 4 2]; Token 9 6 1].
(** a visitor that does not want to go below phrases of kind 2 *)
Example C53_example : snd (Traverse (noting (fun (n : nat) (a : ast) (_ : list ast) => (S n, match a with Phrase 2 _ => false | _ => true end))) (0%nat, []) some_tree)
  = [(some_tree, [], true); (Phrase 2 [Token 7 0 3; Token 8 3 1], [some_tree], false); (Phrase 3 [Token 7 4 2], [some_tree], true);
     (Token 7 4 2, [some_tree; Phrase 3 [Token 7 4 2]], true); (Token 9 6 1, [some_tree], true)].
Proof. reflexivity. Qed.

(** ** C62 the token at an offset *)
Definition covers (t : ast) (offset : nat) : Prop :=
  match t with Token _ off len => (off < offset <= off + len)%nat | Phrase _ _ => False end.
(** The token found at an offset is the last one that the offset is in or at the
    end of, with exactly the phrases above it; nothing is found when there is no
    such token. *)
Theorem C62_token_at : forall root offset,
  match NodeSpineAt root offset with
  | (parents, Some t) => exists p, at_path ast_kids root p = Some t /\ above ast_kids root p = parents /\ covers t offset
      /\ forall q t', at_path ast_kids root q = Some t' -> covers t' offset -> q = p \/ path_lt q p
  | (_, None) => forall q t', at_path ast_kids root q = Some t' -> ~ covers t' offset
  end.
Proof.
  intros root offset. unfold NodeSpineAt, Traverse. set (visit := spine_visitor offset).
  destruct (traverse_good _ visit root ([], None) [] []) as (E & _ & -> & [C O A]).
  assert (COV : forall t, covers t offset <-> match t with Token _ off len => Nat.ltb off offset && Nat.leb offset (off + len) = true | Phrase _ _ => False end).
  { intros [k kids|ty off len]; unfold covers; [tauto|]. rewrite andb_true_iff, Nat.ltb_lt, Nat.leb_le. tauto. }
  assert (ALL : forall q t, at_path ast_kids root q = Some t -> exists sp b, In (q, (t, sp, b)) E).
  { intros q. remember (length q) as n eqn:LN. revert q LN. induction n as [n IH] using lt_wf_ind. intros q -> t AT.
    assert (I : In q (map fst E)).
    { apply A; [congruence|]. intros r (i & r' & ->). assert (X : exists k kids, at_path ast_kids root r = Some (Phrase k kids)).
      { clear -AT. revert root AT. induction r as [|j r IH]; intros root AT; cbn in AT.
        - destruct root as [k kids|]; [exists k, kids; reflexivity|]. cbn in AT. destruct i; discriminate AT.
        - destruct (nth_error (ast_kids root) j) eqn:N; [|discriminate AT]. cbn. rewrite N. eauto. }
      destruct X as (k & kids & X). destruct (IH (length r) ltac:(rewrite app_length; cbn; lia) r eq_refl _ X) as (sp & b & I). exists (Phrase k kids), sp.
      destruct (C _ _ _ _ I) as (_ & _ & st & Y). cbn in Y. subst b. exact I. }
    apply in_map_iff in I as ([q' [[t' sp] b]] & E1 & I). cbn in E1. subst q'. destruct (C _ _ _ _ I) as (Y & _). rewrite AT in Y. injection Y as <-. eauto. }
  assert (L : match replay_v visit (map snd E) ([], None) with
    | (parents, Some t) => exists p b, In (p, (t, parents, b)) E /\ covers t offset /\ forall q t' sp b', In (q, (t', sp, b')) E -> covers t' offset -> q = p \/ path_lt q p
    | (_, None) => forall q t' sp b', In (q, (t', sp, b')) E -> ~ covers t' offset
    end).
  { clear C A ALL. induction E as [|[p [[n sp] b]] E IH] using rev_ind; [intros q t' sp b' []|].
    rewrite map_app in O. assert (S1 : StronglySorted path_lt (map fst E) /\ forall x, In x (map fst E) -> path_lt x p).
    { clear -O. induction (map fst E) as [|y l IH]; [split; [constructor|intros x []]|]. cbn in O. inversion O; subst. destruct (IH H1) as [A B']. split.
      - constructor; [exact A|]. apply Forall_app in H2 as [H2 _]. exact H2.
      - intros x [<-|I]; [|auto]. apply Forall_app in H2 as [_ H2]. inversion H2; assumption. }
    destruct S1 as [S1 LT]. specialize (IH S1). rewrite map_app, replay_v_app. cbn [map snd]. unfold replay_v at 1. cbn [fold_left fst snd].
    set (st := replay_v visit (map snd E) ([], None)) in *.
    assert (KEEP : ~ covers n offset -> match st with
      | (parents, Some t) => exists p0 b0, In (p0, (t, parents, b0)) (E ++ [(p, (n, sp, b))]) /\ covers t offset /\ forall q t' sp0 b', In (q, (t', sp0, b')) (E ++ [(p, (n, sp, b))]) -> covers t' offset -> q = p0 \/ path_lt q p0
      | (_, None) => forall q t' sp0 b', In (q, (t', sp0, b')) (E ++ [(p, (n, sp, b))]) -> ~ covers t' offset end).
    { intros NC. destruct st as [parents [t|]].
      - destruct IH as (p' & b' & I & CT & M). exists p', b'. split; [apply in_app_iff; auto|]. split; [exact CT|]. intros q t' sp0 b0 J CT'. apply in_app_iff in J as [J|[J|[]]]; [eauto|]. injection J as <- <- <- <-. contradiction.
      - intros q t' sp0 b0 J. apply in_app_iff in J as [J|[J|[]]]; [eauto|]. injection J as <- <- <- <-. exact NC. }
    unfold visit, spine_visitor. destruct n as [k kids|ty off len]; [apply KEEP; cbn; tauto|]. destruct (Nat.ltb off offset && Nat.leb offset (off + len)) eqn:M; cbn [fst].
    - exists p, b. split; [apply in_app_iff; right; left; reflexivity|]. split; [apply COV; exact M|]. intros q t' sp0 b' J _. apply in_app_iff in J as [J|[J|[]]]; [|injection J as <- _ _ _; auto].
      right. apply LT. apply (in_map fst) in J. exact J.
    - apply KEEP. rewrite COV, M. discriminate. }
  destruct (replay_v visit (map snd E) ([], None)) as [parents [t|]].
  - destruct L as (p & b & I & CT & M). exists p. destruct (C _ _ _ _ I) as (X & Y & _). cbn in Y. split; [exact X|]. split; [symmetry; exact Y|]. split; [exact CT|].
    intros q t' AT CT'. destruct (ALL _ _ AT) as (sp & b' & J). eauto.
  - intros q t' AT. destruct (ALL _ _ AT) as (sp & b' & J). eauto.
Qed.
Print Assumptions C62_token_at.
Example C62_example : NodeSpineAt some_tree 4 = ([some_tree; Phrase 2 [Token 7 0 3; Token 8 3 1]], Some (Token 8 3 1)) /\ NodeSpineAt some_tree 0 = ([], None).
Proof. split; reflexivity. Qed.

(** ** C51 the outline *)
(** The entries of the outline, in order and each with the entries above it, are
    the declarations of the document in document order, each with the
    declarations around it. *)
Theorem C51_outline : forall document,
  flat_map (entries []) (documentSymbol document)
  = map (fun x => (map shown (fst x), shown (snd x))) (flat_map (declarations []) document).
Proof. exact outline_document. Qed.
Print Assumptions C51_outline.

Definition sym (k : sym_kind) (n : string) (a b : Z) (kids : list symbol) : symbol :=
  Sym (Data k (B n) [] (Rng (Pos a 0) (Pos b 0)) (match k with KOther => true | _ => false end)) kids.
Definition some_doc : list symbol :=
  [sym KOther "ns" 0 1 [];
   sym KClass "A" 1 10 [sym KProperty "$p" 2 3 []; sym KMethod "f" 3 9 [sym KOther "new" 4 8 [sym KClass "anon" 5 7 [sym KMethod "g" 6 7 []]]]];
   sym KFunction "h" 11 12 []].
Example C51_example : map (fun x => (map ds_name (fst x), ds_name (snd x))) (flat_map (entries []) (documentSymbol some_doc))
  = [([], B "A"); ([B "A"], B "$p"); ([B "A"], B "f");
     ([B "A"; B "f"], B "anon"); ([B "A"; B "f"; B "anon"], B "g"); ([], B "h")].
Proof. reflexivity. Qed.

(** ** C52 the scope at a position *)
(** Full statement: the class, interface or trait at a position is the enclosing
    one that starts last, or none. Proved for documents whose symbols start in
    document order and lie inside the symbols above them. *)
Theorem C52_class_at_partial : forall doc pos, nested doc -> starts_ordered doc ->
  match ClassAt doc pos with
  | Some c => exists p, sym_at doc p c /\ class_like (sy_kind (sy_data c)) = true /\ contains c pos
      /\ forall q t, sym_at doc q t -> class_like (sy_kind (sy_data t)) = true -> contains t pos ->
         (q = p \/ path_lt q p) /\ at_or_before (start_of t) (start_of c)
  | None => forall q t, sym_at doc q t -> class_like (sy_kind (sy_data t)) = true -> ~ contains t pos
  end.
Proof.
  intros doc pos NE SO. unfold ClassAt.
  set (take := fun s : symbol => (IsInRange pos (sy_range (sy_data s)) =? 0)%Z && class_like (sy_kind (sy_data s))).
  set (ans := fun s : symbol => if (0 <? IsInRange pos (sy_range (sy_data s)))%Z then StopDescent else if (IsInRange pos (sy_range (sy_data s)) =? 0)%Z then GoOn else ShouldStop).
  assert (F := find_spec (class_at_fn pos) (fun x => x) take ans None).
  assert (TK : forall t, take t = true <-> class_like (sy_kind (sy_data t)) = true /\ contains t pos).
  { intros t. unfold take, contains. rewrite andb_true_iff, in_range0. tauto. }
  assert (UP : forall q t, sym_at doc q t -> contains t pos -> forall r u, proper_prefix r q -> sym_at doc r u -> ans u = GoOn).
  { intros q t AT CT r u PP AU. destruct (NE _ _ _ _ AU AT PP) as [A B']. assert (CU : contains u pos).
    { destruct CT as [X Y]. split; [eapply le_trans; eauto|]. destruct (before_dec pos (r_end (sy_range (sy_data u)))) as [Z|Z]; [exact Z|]. destruct (proj1 (le_lt _ _) (le_trans _ _ _ B' Z) Y). }
    unfold ans. apply in_range0 in CU. rewrite CU. destruct (0 <? _)%Z eqn:G; [|reflexivity]. apply Z.eqb_eq in CU. rewrite CU in G. discriminate G. }
  specialize (F ltac:(intros st n sp; unfold class_at_fn, take; destruct (0 <? _)%Z eqn:G; [destruct (_ =? 0)%Z eqn:Z0; [apply Z.eqb_eq in Z0; rewrite Z0 in G; discriminate G|reflexivity]|]; destruct (_ =? 0)%Z; cbn; [|reflexivity]; destruct (class_like _); reflexivity)).
  specialize (F ltac:(intros st n sp; unfold class_at_fn, ans; destruct (0 <? _)%Z; [reflexivity|]; destruct (_ =? 0)%Z; reflexivity) eq_refl doc pos SO).
  specialize (F ltac:(intros t; unfold ans; destruct (0 <? _)%Z eqn:G; [discriminate|]; destruct (_ =? 0)%Z eqn:Z0; [discriminate|]; intros _; apply in_range_lt; apply Z.ltb_ge in G; apply Z.eqb_neq in Z0; apply Z.ltb_lt; lia)).
  cbn beta in F. destruct (traverseDocument (class_at_fn pos) None doc) as [c|].
  - destruct F as (p & AT & T & M). exists p. apply TK in T as [CL CT]. split; [exact AT|]. split; [exact CL|]. split; [exact CT|]. intros q t AQ CLQ CQ.
    assert (X : q = p \/ path_lt q p) by (apply (M q t AQ); [apply TK; auto|exact (inside_start _ _ CQ)|eapply UP; eauto]). split; [exact X|].
    destruct X as [->|X]; [|eapply SO; eauto]. unfold sym_at in *. rewrite AT in AQ. injection AQ as <-. right. reflexivity.
  - intros q t AQ CLQ CQ. assert (X : take t = false) by (apply (F q t AQ); [exact (inside_start _ _ CQ)|eapply UP; eauto]). assert (Y : take t = true) by (apply TK; auto). congruence.
Qed.
Print Assumptions C52_class_at_partial.

Ltac some_path p := repeat (destruct p as [|? p]; cbn in *; try discriminate; try congruence).
Lemma some_doc_nested : forall doc, doc = some_doc -> nested doc /\ starts_ordered doc.
Proof.
  intros doc ->.
  assert (L : forall p s, sym_at some_doc p s -> In (p, s) (
    [([0], nth 0 some_doc (sym KOther "" 0 0 [])); ([1], nth 1 some_doc (sym KOther "" 0 0 [])); ([2], nth 2 some_doc (sym KOther "" 0 0 []))]
    ++ [([1;0], sym KProperty "$p" 2 3 []); ([1;1], sym KMethod "f" 3 9 [sym KOther "new" 4 8 [sym KClass "anon" 5 7 [sym KMethod "g" 6 7 []]]]); ([1;1;0], sym KOther "new" 4 8 [sym KClass "anon" 5 7 [sym KMethod "g" 6 7 []]]);
        ([1;1;0;0], sym KClass "anon" 5 7 [sym KMethod "g" 6 7 []]); ([1;1;0;0;0], sym KMethod "g" 6 7 [])])%nat).
  { intros p s H. unfold sym_at in H. destruct p as [|i p]; [discriminate H|]. cbn [in_forest] in H. destruct i as [|[|[|i]]]; cbn [nth_error some_doc] in H; [| | |destruct i; discriminate H].
    - destruct p as [|j p]; cbn in H; [injection H as <-; cbn; auto|destruct j; discriminate H].
    - destruct p as [|j p]; cbn in H; [injection H as <-; cbn; auto|]. destruct j as [|[|j]]; cbn in H; [| |destruct j; discriminate H].
      + destruct p as [|j p]; cbn in H; [injection H as <-; cbn; auto 10|destruct j; discriminate H].
      + destruct p as [|j p]; cbn in H; [injection H as <-; cbn; auto 10|]. destruct j as [|j]; cbn in H; [|destruct j; discriminate H].
        destruct p as [|j p]; cbn in H; [injection H as <-; cbn; auto 10|]. destruct j as [|j]; cbn in H; [|destruct j; discriminate H].
        destruct p as [|j p]; cbn in H; [injection H as <-; cbn; auto 10|]. destruct j as [|j]; cbn in H; [|destruct j; discriminate H].
        destruct p as [|j p]; cbn in H; [injection H as <-; cbn; auto 10|]. destruct j; discriminate H.
    - destruct p as [|j p]; cbn in H; [injection H as <-; cbn; auto|destruct j; discriminate H]. }
  split.
  - intros p q s t S1 S2 PP. apply L in S1, S2. apply prefix_lt in PP as PL. destruct PP as (i & r & PP). unfold at_or_before, before, start_of, end_of.
    cbn [In app] in S1, S2. repeat (destruct S1 as [S1|S1]); try contradiction; injection S1 as <- <-; repeat (destruct S2 as [S2|S2]); try contradiction; injection S2 as <- <-; cbn in *; try discriminate PP; try lia; split; solve [left; lia|right; reflexivity].
  - intros p q s t S1 S2 PL. apply L in S1, S2. unfold at_or_before, before, start_of.
    cbn [In app] in S1, S2. repeat (destruct S1 as [S1|S1]); try contradiction; injection S1 as <- <-; repeat (destruct S2 as [S2|S2]); try contradiction; injection S2 as <- <-; cbn in *; solve [lia|left; lia|right; reflexivity].
Qed.
Example C52_hypotheses_met : nested some_doc /\ starts_ordered some_doc
  /\ option_map (fun s => sy_name (sy_data s)) (ClassAt some_doc (Pos 6 3)) = Some (B "anon")
  /\ option_map (fun s => sy_name (sy_data s)) (ClassAt some_doc (Pos 8 3)) = Some (B "A") /\ ClassAt some_doc (Pos 11 0) = None.
Proof. destruct (some_doc_nested some_doc eq_refl) as [A B']. split; [exact A|]. split; [exact B'|]. vm_compute. repeat split; reflexivity. Qed.

(** The scope used to decide which members are visible comes from the list of
    classes instead. Full statement as above; proved for a position inside one
    of classes that follow each other. *)
Theorem C52_class_scope_partial : forall classes pos k c,
  (forall i a, nth_error classes i = Some a -> at_or_before (r_start (sy_range a)) (r_end (sy_range a))) ->
  (forall i j a b, (i < j)%nat -> nth_error classes i = Some a -> nth_error classes j = Some b -> at_or_before (r_end (sy_range a)) (r_start (sy_range b))) ->
  nth_error classes k = Some c -> inside pos (sy_range c) ->
  getClassAtPos classes pos = Some c
  /\ (sy_kind c = KClass \/ sy_kind c = KInterface -> GetClassScopeAt classes pos = sy_name c)
  /\ (sy_kind c = KTrait -> GetClassScopeAt classes pos = []).
Proof.
  intros classes pos k c ORD DIS N IN. assert (L : (k < length classes)%nat) by (apply nth_error_Some; congruence).
  assert (G : getClassAtPos classes pos = Some c).
  { unfold getClassAtPos. rewrite (search_unique _ _ k); [exact N|lia| |].
    - intros i I. destruct (nth_error classes i) as [a|] eqn:A; [|apply nth_error_None in A; lia]. apply Z.leb_gt. destruct (C28_in_range pos (sy_range a)) as (_ & _ & X). apply Z.gt_lt. apply X.
      assert (E1 := DIS i k a c I A N). assert (E2 : at_or_before (r_end (sy_range a)) pos) by (eapply le_trans; [exact E1|exact (inside_start _ _ IN)]). split; [eapply le_trans; [exact (ORD _ _ A)|exact E2]|exact E2].
    - intros i I. destruct (nth_error classes i) as [a|] eqn:A; [|reflexivity]. apply Z.leb_le. destruct (C28_in_range pos (sy_range a)) as (_ & _ & X).
      destruct (Z.le_gt_cases (IsInRange pos (sy_range a)) 0) as [Y|Y]; [exact Y|]. exfalso. assert (Y' : (IsInRange pos (sy_range a) > 0)%Z) by lia. apply X in Y' as [Y1 Y2].
      destruct IN as [IN1 IN2]. destruct (Nat.eq_dec i k) as [->|NE]; [rewrite N in A; injection A as <-; exact (proj1 (le_lt _ _) Y2 IN2)|].
      assert (E1 := DIS k i c a ltac:(lia) N A). exact (proj1 (le_lt _ _) (le_trans _ _ _ E1 Y1) IN2). }
  split; [exact G|]. unfold GetClassScopeAt. rewrite G. split; [intros [->| ->]; reflexivity|intros ->; reflexivity].
Qed.
Print Assumptions C52_class_scope_partial.
Definition class_data (n : string) (a b : Z) : sym_data := Data KClass (B n) [] (Rng (Pos a 0) (Pos b 0)) false.
Example C52_class_scope_hypotheses_met : exists classes pos k c,
  (forall i a, nth_error classes i = Some a -> at_or_before (r_start (sy_range a)) (r_end (sy_range a))) /\
  (forall i j a b, (i < j)%nat -> nth_error classes i = Some a -> nth_error classes j = Some b -> at_or_before (r_end (sy_range a)) (r_start (sy_range b))) /\
  nth_error classes k = Some c /\ inside pos (sy_range c) /\ k = 1%nat.
Proof.
  exists [class_data "A" 1 5; class_data "B" 6 9; class_data "C" 9 12], (Pos 8 4), 1%nat, (class_data "B" 6 9). unfold at_or_before, before, inside. split; [|split; [|split; [reflexivity|split; [|reflexivity]]]].
  - intros [|[|[|i]]] a E; cbn in E; try (injection E as <-; cbn; left; lia); destruct i; discriminate E.
  - intros [|[|[|i]]] [|[|[|j]]] a b L E F; cbn in E, F; try lia; try (destruct i; discriminate E); try (destruct j; discriminate F); injection E as <-; injection F as <-; cbn; solve [left; lia|right; reflexivity].
  - unfold at_or_before, before. cbn. lia.
Qed.

(** Outside classes the next class is taken: in code before a class, the members
    that only the class may use are treated as visible. *)
Theorem C52_next_class_refuted : exists classes pos,
  getClassAtPos classes pos = Some (class_data "A" 5 9) /\ forall c, In c classes -> ~ inside pos (sy_range c).
Proof. exists [class_data "A" 5 9], (Pos 1 0). split; [reflexivity|]. intros c [<-|[]] [H _]. unfold at_or_before, before in H. cbn in H. destruct H as [H|H]; [lia|discriminate H]. Qed.
Print Assumptions C52_next_class_refuted.

(** After an anonymous class the scope of the class around it is lost. *)
Theorem C52_nested_class_refuted : exists classes pos,
  getClassAtPos classes pos = None /\ exists c, In c classes /\ inside pos (sy_range c).
Proof.
  exists [class_data "A" 1 20; class_data "anonymous" 3 6], (Pos 10 0). split; [reflexivity|]. exists (class_data "A" 1 20). split; [left; reflexivity|]. split; [left; unfold before; cbn; lia|unfold before; cbn; lia].
Qed.
Print Assumptions C52_nested_class_refuted.

(** The variable scope at a position is reached from the document's scope
    through scopes that contain the position, and none of its own inner scopes
    contains it. *)
Inductive leads (ts : list var_table) (pos : position) : nat -> nat -> Prop :=
| leads_here : forall i, leads ts pos i i
| leads_in : forall i j k t u, nth_error ts i = Some t -> In j (vt_children t) -> nth_error ts j = Some u -> inside pos (vt_range u) -> leads ts pos j k -> leads ts pos i k.
Theorem C52_variable_scope : forall root ops pos, balanced 0 ops ->
  exists i t, GetVariableTableAt (LoadTables root ops) pos = Some i
  /\ nth_error (vd_tables (LoadTables root ops)) i = Some t
  /\ leads (vd_tables (LoadTables root ops)) pos 0 i
  /\ forall j u, In j (vt_children t) -> nth_error (vd_tables (LoadTables root ops)) j = Some u -> ~ inside pos (vt_range u).
Proof.
  intros root ops pos BA. destruct (load_ok ops _ _ _ _ _ (root_ok root) BA eq_refl) as (n & K). unfold LoadTables. set (d := fold_left var_step ops _) in *. destruct K as [A S' OP _ _ T].
  unfold GetVariableTableAt. rewrite S'. cbn [rev app]. set (ts := vd_tables d) in *.
  assert (G : forall fuel i, (i < length ts)%nat -> (length ts - i <= fuel)%nat -> exists t, nth_error ts (find_table fuel ts pos i) = Some t /\ leads ts pos i (find_table fuel ts pos i)
    /\ forall j u, In j (vt_children t) -> nth_error ts j = Some u -> ~ inside pos (vt_range u)).
  { induction fuel as [|fuel IH]; intros i L F; [lia|]. cbn [find_table]. destruct (nth_error ts i) as [t|] eqn:N; [|apply nth_error_None in N; lia].
    destruct (find _ (vt_children t)) as [c|] eqn:FD.
    - apply find_some in FD as [I X]. destruct (nth_error ts c) as [u|] eqn:U; [|discriminate X]. apply in_range0 in X.
      assert (R : (i < c < length ts)%nat) by (apply (tr_range _ T); unfold children; fold ts; rewrite N; exact I).
      destruct (IH c) as (t' & N' & LD & M); [lia|lia|]. exists t'. split; [exact N'|]. split; [eapply leads_in; eauto|exact M].
    - exists t. split; [exact N|]. split; [constructor|]. intros j u I U X. assert (Y := find_none _ _ FD j I). cbn beta in Y. rewrite U in Y. apply in_range0 in X. congruence. }
  assert (POS : (0 < length ts)%nat) by (rewrite A; apply OP; left; reflexivity).
  destruct (G (length ts) 0%nat POS ltac:(lia)) as (t & N & LD & M). exists (find_table (length ts) ts pos 0%nat), t. auto.
Qed.
Print Assumptions C52_variable_scope.
Example C52_variable_scope_example : GetVariableTableAt (LoadTables whole closure_doc) (Pos 4 0) = Some 1%nat /\ GetVariableTableAt (LoadTables whole closure_doc) (Pos 6 0) = Some 0%nat.
Proof. split; reflexivity. Qed.

(** The imports that apply at a position are those of the last namespace that
    starts strictly before it, or of the first one. *)
Theorem C52_imports_at : forall starts pos,
  starts <> [] -> (forall i j a b, (i < j)%nat -> nth_error starts i = Some a -> nth_error starts j = Some b -> before a b) ->
  exists s, nth_error starts (ImportTableAtPos starts pos) = Some s
  /\ (ImportTableAtPos starts pos = 0%nat \/ before s pos)
  /\ forall j b, (ImportTableAtPos starts pos < j)%nat -> nth_error starts j = Some b -> at_or_before pos b.
Proof.
  intros starts pos NE ORD. unfold ImportTableAtPos. set (f := fun i => match nth_error starts i with Some s => (ComparePos pos s <=? 0)%Z | None => true end).
  destruct (sort_search_spec (length starts) f) as (LE & P & Q).
  { intros a b AB BL F. unfold f in *. destruct (nth_error starts a) as [x|] eqn:A'; [|apply nth_error_None in A'; lia]. destruct (nth_error starts b) as [y|] eqn:B'; [|reflexivity].
    destruct (Nat.eq_dec a b) as [->|]; [rewrite A' in B'; injection B' as <-; exact F|]. apply compare_le in F. apply compare_le. eapply le_trans; [exact F|]. left. eapply (ORD a b); eauto. lia. }
  set (k := sort_search (length starts) f) in *.
  assert (AFTER : forall j b, (k <= j)%nat -> nth_error starts j = Some b -> at_or_before pos b).
  { intros j b L N. assert (JL : (j < length starts)%nat) by (apply nth_error_Some; congruence). specialize (Q ltac:(lia)). unfold f in Q. destruct (nth_error starts k) as [x|] eqn:X; [|apply nth_error_None in X; lia].
    apply compare_le in Q. destruct (Nat.eq_dec k j) as [<-|]; [rewrite X in N; injection N as <-; exact Q|]. eapply le_trans; [exact Q|]. left. eapply (ORD k j); eauto. lia. }
  destruct k as [|k].
  - destruct starts as [|s starts]; [congruence|]. exists s. split; [reflexivity|]. split; [auto|]. intros j b L N. apply (AFTER j); [lia|exact N].
  - destruct (nth_error starts k) as [s|] eqn:N; [|apply nth_error_None in N; lia]. exists s. split; [reflexivity|]. split; [right|].
    + specialize (P k ltac:(lia)). unfold f in P. rewrite N in P. destruct (before_dec s pos) as [X|X]; [exact X|]. apply compare_le in X. congruence.
    + intros j b L N'. apply (AFTER j); [lia|exact N'].
Qed.
Print Assumptions C52_imports_at.
Example C52_imports_example : ImportTableAtPos [Pos 0 0; Pos 4 0; Pos 9 0] (Pos 5 2) = 1%nat /\ ImportTableAtPos [Pos 0 0; Pos 4 0; Pos 9 0] (Pos 0 0) = 0%nat.
Proof. split; reflexivity. Qed.

(** ** C49 the active parameter *)
(** Inside an argument list, the active parameter is the number of commas that
    start at or before the cursor. *)
Theorem C49_commas_started : forall start commas list_end pos,
  commas_in start commas list_end -> inside pos (Rng start list_end) ->
  exists a b, commas = a ++ b /\ ActiveParameter (arg_ranges start commas list_end) pos = length a
  /\ (forall c, In c a -> at_or_before (r_start c) pos) /\ (forall c, In c b -> before pos (r_start c)).
Proof. intros start commas list_end pos CI [_ PE]. apply active_started; assumption. Qed.
Print Assumptions C49_commas_started.

(** Full statement: it is the number of commas before the cursor. Proved for a
    cursor that is not directly in front of a comma. *)
Theorem C49_commas_before_partial : forall start commas list_end pos,
  commas_in start commas list_end -> inside pos (Rng start list_end) ->
  (forall c, In c commas -> ~ inside pos c) ->
  commas_before commas pos (ActiveParameter (arg_ranges start commas list_end) pos).
Proof.
  intros start commas list_end pos CI IN OUT. destruct (C49_commas_started _ _ _ _ CI IN) as (a & b & -> & -> & A & B'). exists a, b. split; [reflexivity|]. split; [reflexivity|].
  destruct (commas_le _ _ _ CI) as (_ & W). split.
  - intros c I. specialize (A c I). destruct (before_dec pos (r_end c)) as [X|X]; [|exact X]. destruct (OUT c); [apply in_app_iff; auto|]. split; assumption.
  - intros c I. destruct (W c) as (_ & Y & _); [apply in_app_iff; auto|]. destruct (before_dec pos (r_end c)) as [X|X]; [exact X|]. exfalso. specialize (B' c I). exact (proj1 (le_lt _ _) (le_trans _ _ _ (or_introl Y) X) B').
Qed.
Print Assumptions C49_commas_before_partial.
Definition call_commas : list range := [Rng (Pos 1 6) (Pos 1 7); Rng (Pos 2 3) (Pos 2 4)].
Example C49_hypotheses_met : commas_in (Pos 1 3) call_commas (Pos 3 0) /\ inside (Pos 2 1) (Rng (Pos 1 3) (Pos 3 0)) /\ (forall c, In c call_commas -> ~ inside (Pos 2 1) c)
  /\ ActiveParameter (arg_ranges (Pos 1 3) call_commas (Pos 3 0)) (Pos 2 1) = 1%nat.
Proof.
  unfold call_commas, inside, at_or_before, before. cbn. unfold at_or_before, before; cbn. repeat split; auto; try lia; try (left; lia).
  intros c [<-|[<-|[]]] [X Y]; cbn in *; [lia|]. destruct X as [X|X]; [lia|discriminate X].
Qed.

(** With the cursor directly in front of a comma, at the end of an argument, the
    next parameter is highlighted. *)
Theorem C49_before_comma_refuted : exists start commas list_end pos,
  commas_in start commas list_end /\ inside pos (Rng start list_end)
  /\ commas_before commas pos 0 /\ ActiveParameter (arg_ranges start commas list_end) pos = 1%nat.
Proof.
  exists (Pos 1 3), [Rng (Pos 1 6) (Pos 1 7)], (Pos 1 12), (Pos 1 6). unfold commas_before, inside, at_or_before, before. cbn. unfold at_or_before, before; cbn. repeat split; auto; try lia; try (left; lia).
  exists [], [Rng (Pos 1 6) (Pos 1 7)]. repeat split; [intros c []|]. intros c [<-|[]]. cbn. lia.
Qed.
Print Assumptions C49_before_comma_refuted.

(** ** C63 the symbol under the cursor *)
(** the position is in the symbol or directly behind it *)
Definition touches (s : symbol) (pos : position) : Prop := at_or_before (start_of s) pos /\ at_or_before pos (end_of s).
(** Full statement: the symbol under the cursor is the last one in document
    order, hence the innermost, of those with types that the cursor touches.
    Proved for documents whose symbols start in document order and lie inside
    the symbols above them. *)
Theorem C63_symbol_at_partial : forall doc pos, nested doc -> starts_ordered doc ->
  match HasTypesAtPos doc pos with
  | Some c => exists p, sym_at doc p c /\ sy_types (sy_data c) = true /\ touches c pos
      /\ forall q t, sym_at doc q t -> sy_types (sy_data t) = true -> touches t pos -> q = p \/ path_lt q p
  | None => forall q t, sym_at doc q t -> sy_types (sy_data t) = true -> ~ touches t pos
  end.
Proof.
  intros doc pos NE SO. unfold HasTypesAtPos.
  set (touch := fun s : symbol => (IsInRange pos (sy_range (sy_data s)) =? 0)%Z || ((0 <? IsInRange pos (sy_range (sy_data s)))%Z && (ComparePos pos (r_end (sy_range (sy_data s))) =? 0)%Z)).
  assert (TC : forall t, touch t = true <-> touches t pos).
  { intros t. unfold touch, touches, start_of, end_of. rewrite orb_true_iff, andb_true_iff, in_range0, in_range_gt, Z.eqb_eq. destruct (C28_compare_positions pos (r_end (sy_range (sy_data t)))) as (_ & CE & _). rewrite CE. unfold inside. split.
    - intros [[A B']|[[A _] ->]]; [split; [exact A|left; exact B']|split; [exact A|right; reflexivity]].
    - intros [A [B'|B']]; [left; auto|right; rewrite B' in *; split; [split; [exact A|right; reflexivity]|reflexivity]]. }
  set (take := fun s : symbol => touch s && sy_types (sy_data s)).
  set (ans := fun s : symbol => if touch s then GoOn else if (IsInRange pos (sy_range (sy_data s)) <? 0)%Z then ShouldStop else if (0 <? IsInRange pos (sy_range (sy_data s)))%Z then StopDescent else GoOn).
  assert (F := find_spec (has_types_at_fn pos) (fun x => x) take ans None).
  assert (TK : forall t, take t = true <-> sy_types (sy_data t) = true /\ touches t pos).
  { intros t. unfold take. rewrite andb_true_iff, TC. tauto. }
  assert (UP : forall q t, sym_at doc q t -> touches t pos -> forall r u, proper_prefix r q -> sym_at doc r u -> ans u = GoOn).
  { intros q t AT [X Y] r u PP AU. destruct (NE _ _ _ _ AU AT PP) as [A B']. assert (CU : touches u pos) by (split; [exact (le_trans _ _ _ A X)|exact (le_trans _ _ _ Y B')]).
    unfold ans. apply TC in CU. rewrite CU. reflexivity. }
  specialize (F ltac:(intros st n sp; unfold has_types_at_fn, take; fold (touch n); destruct (touch n); cbn; [destruct (sy_types _); reflexivity|]; destruct (_ <? 0)%Z; [reflexivity|]; destruct (0 <? _)%Z; reflexivity)).
  specialize (F ltac:(intros st n sp; unfold has_types_at_fn, ans; fold (touch n); destruct (touch n); [reflexivity|]; destruct (_ <? 0)%Z; [reflexivity|]; destruct (0 <? _)%Z; reflexivity) eq_refl doc pos SO).
  specialize (F ltac:(intros t; unfold ans; destruct (touch t); [discriminate|]; destruct (IsInRange pos (sy_range (sy_data t)) <? 0)%Z eqn:G; [|destruct (0 <? _)%Z; discriminate]; intros _; apply in_range_lt; exact G)).
  cbn beta in F. destruct (traverseDocument (has_types_at_fn pos) None doc) as [c|].
  - destruct F as (p & AT & T & M). exists p. apply TK in T as [CL CT]. split; [exact AT|]. split; [exact CL|]. split; [exact CT|]. intros q t AQ CLQ CQ.
    apply (M q t AQ); [apply TK; auto|exact (proj1 CQ)|eapply UP; eauto].
  - intros q t AQ CLQ CQ. assert (X : take t = false) by (apply (F q t AQ); [exact (proj1 CQ)|eapply UP; eauto]). assert (Y : take t = true) by (apply TK; auto). congruence.
Qed.
Print Assumptions C63_symbol_at_partial.

(** The argument list whose signature is shown: the last, hence innermost, one
    that contains the cursor. *)
Theorem C63_argument_list_partial : forall doc pos, nested doc -> starts_ordered doc ->
  match fst (ArgumentListAndFunctionCallAt doc pos) with
  | Some c => exists p, sym_at doc p c /\ sy_kind (sy_data c) = KArgumentList /\ contains c pos
      /\ forall q t, sym_at doc q t -> sy_kind (sy_data t) = KArgumentList -> contains t pos -> q = p \/ path_lt q p
  | None => forall q t, sym_at doc q t -> sy_kind (sy_data t) = KArgumentList -> ~ contains t pos
  end.
Proof.
  intros doc pos NE SO.
  assert (FST : fst (ArgumentListAndFunctionCallAt doc pos) = fst (traverseDocument (arg_list_fn pos) (None, None) doc)).
  { unfold ArgumentListAndFunctionCallAt. destruct (traverseDocument (arg_list_fn pos) (None, None) doc) as [[a|] [b|]]; reflexivity. }
  rewrite FST. set (is_args := fun s : symbol => match sy_kind (sy_data s) with KArgumentList => true | _ => false end).
  assert (IA : forall t, is_args t = true <-> sy_kind (sy_data t) = KArgumentList) by (intros t; unfold is_args; destruct (sy_kind (sy_data t)); intuition discriminate).
  set (take := fun s : symbol => (IsInRange pos (sy_range (sy_data s)) =? 0)%Z && is_args s).
  set (ans := fun s : symbol => if (IsInRange pos (sy_range (sy_data s)) =? 0)%Z then GoOn else if (IsInRange pos (sy_range (sy_data s)) <? 0)%Z then ShouldStop else if (0 <? IsInRange pos (sy_range (sy_data s)))%Z then StopDescent else GoOn).
  assert (F := find_spec (arg_list_fn pos) fst take ans (None, None)).
  assert (TK : forall t, take t = true <-> sy_kind (sy_data t) = KArgumentList /\ contains t pos).
  { intros t. unfold take, contains. rewrite andb_true_iff, in_range0, IA. tauto. }
  assert (UP : forall q t, sym_at doc q t -> contains t pos -> forall r u, proper_prefix r q -> sym_at doc r u -> ans u = GoOn).
  { intros q t AT CT r u PP AU. destruct (NE _ _ _ _ AU AT PP) as [A B']. assert (CU : contains u pos).
    { destruct CT as [X Y]. split; [eapply le_trans; eauto|]. destruct (before_dec pos (r_end (sy_range (sy_data u)))) as [Z|Z]; [exact Z|]. destruct (proj1 (le_lt _ _) (le_trans _ _ _ B' Z) Y). }
    unfold ans. apply in_range0 in CU. rewrite CU. reflexivity. }
  specialize (F ltac:(intros st n sp; unfold arg_list_fn, take, is_args; destruct (_ =? 0)%Z; cbn [andb]; [destruct (sy_kind (sy_data n)); reflexivity|]; destruct (_ <? 0)%Z; [reflexivity|]; destruct (0 <? _)%Z; reflexivity)).
  specialize (F ltac:(intros st n sp; unfold arg_list_fn, ans; destruct (_ =? 0)%Z; [destruct (sy_kind (sy_data n)); reflexivity|]; destruct (_ <? 0)%Z; [reflexivity|]; destruct (0 <? _)%Z; reflexivity) eq_refl doc pos SO).
  specialize (F ltac:(intros t; unfold ans; destruct (_ =? 0)%Z; [discriminate|]; destruct (IsInRange pos (sy_range (sy_data t)) <? 0)%Z eqn:G; [|destruct (0 <? _)%Z; discriminate]; intros _; apply in_range_lt; exact G)).
  cbn beta in F. destruct (fst (traverseDocument (arg_list_fn pos) (None, None) doc)) as [c|].
  - destruct F as (p & AT & T & M). exists p. apply TK in T as [CL CT]. split; [exact AT|]. split; [exact CL|]. split; [exact CT|]. intros q t AQ CLQ CQ.
    apply (M q t AQ); [apply TK; auto|exact (inside_start _ _ CQ)|eapply UP; eauto].
  - intros q t AQ CLQ CQ. assert (X : take t = false) by (apply (F q t AQ); [exact (inside_start _ _ CQ)|eapply UP; eauto]). assert (Y : take t = true) by (apply TK; auto). congruence.
Qed.
Print Assumptions C63_argument_list_partial.

(** Full statement: the callee whose parameters are shown is, for the arguments
    of an anonymous class, the symbol that creates it, otherwise the symbol in
    front of the argument list.  Proved except for an argument list that lies in
    the argument list of an anonymous class: see C63_callee_refuted. *)
Theorem C63_callee_partial : forall doc pos a callee, ArgumentListAndFunctionCallAt doc pos = (Some a, callee) ->
  exists p, sym_at doc p a /\ sy_kind (sy_data a) = KArgumentList /\ contains a pos
  /\ (forall d, anonymous_class_arguments doc p d -> callee = Some d)
  /\ ((forall d, ~ anonymous_class_arguments doc p d) -> callee = HasTypesBeforePos doc (start_of a) \/
       exists q m d, path_lt q p /\ sym_at doc q m /\ sy_kind (sy_data m) = KArgumentList /\ contains m pos /\ anonymous_class_arguments doc q d /\ callee = Some d).
Proof. exact callee_spec. Qed.
Print Assumptions C63_callee_partial.
(** [new class(f(|)) {}]: inside the arguments of f the parameters of the
    constructor are shown. *)
Definition anonymous_doc : list symbol :=
  [sym KClassTypeDesignator "new" 0 12 [sym KClass "class" 1 12 [sym KArgumentList "(" 2 9 [sym KOther "f" 3 4 []; sym KArgumentList "((" 4 6 []]]]].
Theorem C63_callee_refuted : exists a callee, ArgumentListAndFunctionCallAt anonymous_doc (Pos 5 0) = (Some a, Some callee)
  /\ sy_name (sy_data a) = B "((" /\ sy_name (sy_data callee) = B "new"
  /\ option_map (fun s => sy_name (sy_data s)) (HasTypesBeforePos anonymous_doc (start_of a)) = Some (B "f").
Proof. eexists. eexists. split; [reflexivity|]. split; [reflexivity|]. split; reflexivity. Qed.
Print Assumptions C63_callee_refuted.
Example C63_callee_example :
  option_map (fun s => sy_name (sy_data s)) (snd (ArgumentListAndFunctionCallAt anonymous_doc (Pos 7 0))) = Some (B "new")
  /\ (exists d, anonymous_class_arguments anonymous_doc [0; 0; 0]%nat d)
  /\ TraverseDocument [sym KOther "a" 0 9 [sym KOther "b" 1 2 []]; sym KOther "c" 9 9 []]
     = [Pre (sym KOther "a" 0 9 [sym KOther "b" 1 2 []]); Pre (sym KOther "b" 1 2 []); Post (sym KOther "b" 1 2 []);
        Post (sym KOther "a" 0 9 [sym KOther "b" 1 2 []]); Pre (sym KOther "c" 9 9 []); Post (sym KOther "c" 9 9 [])].
Proof.
  split; [reflexivity|]. split; [|reflexivity]. eexists. exists [0%nat], 0%nat, 0%nat. eexists. split; [reflexivity|]. split; [reflexivity|]. split; [reflexivity|]. split; reflexivity.
Qed.

(** The symbol in front of a position (what a member access or a call is applied
    to): the last one in document order that starts at or before the position
    and whose enclosing symbols all contain it. *)
Theorem C63_symbol_before_partial : forall doc pos, starts_ordered doc ->
  match HasTypesBeforePos doc pos with
  | Some c => exists p, sym_at doc p c /\ sy_types (sy_data c) = true /\ at_or_before (start_of c) pos
      /\ forall q t, sym_at doc q t -> sy_types (sy_data t) = true -> at_or_before (start_of t) pos ->
         (forall r u, proper_prefix r q -> sym_at doc r u -> contains u pos) -> q = p \/ path_lt q p
  | None => forall q t, sym_at doc q t -> sy_types (sy_data t) = true -> at_or_before (start_of t) pos ->
         ~ (forall r u, proper_prefix r q -> sym_at doc r u -> contains u pos)
  end.
Proof.
  intros doc pos SO. unfold HasTypesBeforePos. set (take := fun s : symbol => negb (IsInRange pos (sy_range (sy_data s)) <? 0)%Z && sy_types (sy_data s)).
  set (ans := fun s : symbol => if (0 <? IsInRange pos (sy_range (sy_data s)))%Z then StopDescent else if (IsInRange pos (sy_range (sy_data s)) <? 0)%Z then ShouldStop else GoOn).
  assert (F := find_spec (has_types_before_fn pos) (fun x => x) take ans None).
  assert (TK : forall t, take t = true <-> sy_types (sy_data t) = true /\ at_or_before (start_of t) pos).
  { intros t. unfold take, start_of. rewrite andb_true_iff, negb_true_iff. fold (le (r_start (sy_range (sy_data t))) pos). rewrite le_lt, <- in_range_lt. destruct (_ <? 0)%Z; intuition congruence. }
  assert (UP : forall u, contains u pos -> ans u = GoOn).
  { intros u CU. unfold ans. apply in_range0 in CU. apply Z.eqb_eq in CU. rewrite CU. reflexivity. }
  specialize (F ltac:(intros st n sp; unfold has_types_before_fn, take; destruct (0 <? _)%Z eqn:G; [apply Z.ltb_lt in G; destruct (_ <? 0)%Z eqn:H; [apply Z.ltb_lt in H; lia|]; destruct (sy_types _); reflexivity|]; destruct (_ <? 0)%Z; cbn; [reflexivity|]; destruct (sy_types _); reflexivity)).
  specialize (F ltac:(intros st n sp; unfold has_types_before_fn, ans; destruct (0 <? _)%Z; [reflexivity|]; destruct (_ <? 0)%Z; reflexivity) eq_refl doc pos SO).
  specialize (F ltac:(intros t; unfold ans; destruct (0 <? _)%Z; [discriminate|]; destruct (IsInRange pos (sy_range (sy_data t)) <? 0)%Z eqn:G; [|discriminate]; intros _; apply in_range_lt; exact G)).
  cbn beta in F. destruct (traverseDocument (has_types_before_fn pos) None doc) as [c|].
  - destruct F as (p & AT & T & M). exists p. apply TK in T as [CL CT]. split; [exact AT|]. split; [exact CL|]. split; [exact CT|]. intros q t AQ CLQ CQ CC.
    apply (M q t AQ); [apply TK; auto|exact CQ|]. intros r u PP AU. apply UP. eapply CC; eauto.
  - intros q t AQ CLQ CQ CC. assert (X : take t = false) by (apply (F q t AQ CQ); intros r u PP AU; apply UP; eapply CC; eauto). assert (Y : take t = true) by (apply TK; auto). congruence.
Qed.
Print Assumptions C63_symbol_before_partial.
Example C63_example : option_map (fun s => sy_name (sy_data s)) (HasTypesAtPos some_doc (Pos 8 0)) = Some (B "new")
  /\ option_map (fun s => sy_name (sy_data s)) (HasTypesBeforePos some_doc (Pos 8 5)) = Some (B "new").
Proof. split; reflexivity. Qed.
Definition call_doc : list symbol :=
  [sym KOther "f" 0 1 []; sym KArgumentList "(" 1 9 [sym KOther "g" 2 3 []; sym KArgumentList "((" 3 6 []]].
Example C63_argument_list_example :
  option_map (fun s => sy_name (sy_data s)) (fst (ArgumentListAndFunctionCallAt call_doc (Pos 4 0))) = Some (B "((")
  /\ option_map (fun s => sy_name (sy_data s)) (fst (ArgumentListAndFunctionCallAt call_doc (Pos 7 0))) = Some (B "(").
Proof. split; reflexivity. Qed.
