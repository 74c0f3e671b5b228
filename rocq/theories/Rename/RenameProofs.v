(** Which occurrences a renaming changes: proofs. *)
From Coq Require Import String.
From Coq Require Import List Bool ZArith Lia Permutation.
From Coq.Strings Require Import Byte.
From Verif Require Import Base.Bytes Base.BytesProofs Base.Protocol Symbols.Symbols Symbols.KeysModel Text.TextModel Text.PositionModel Text.PositionSpec
  Types.TypesModel Types.ImportModel Rpc.StreamModel Ide.VariableModel Ide.VariableSpec Ide.VariableProofs Ide.UnusedProofs Ide.FindProofs
  Analyse.SyntaxModel Analyse.AnalyseModel Analyse.AnalyseSpec Analyse.SpecProofs Analyse.LeafProofs
  Whole.CursorModel Rename.TraceSpec Rename.TraceProofs Rename.RenameModel Rename.RenameSpec.
From Verif Require Import Ide.UnusedProofs.
Import ListNotations.
Open Scope list_scope.
Open Scope nat_scope.

(** ** The variables of one table *)
Lemma contextual_occurrences : forall occs name,
  Permutation (map cv_var (GetContextualVariables (table_of occs) name))
              (map oc_var (List.filter (fun o => str_eqb (oc_name o) name) occs)).
Proof.
  intros occs name. induction occs as [|o occs IH] using rev_ind; [reflexivity|]. rewrite of_snoc, filter_app, map_app. cbn [List.filter].
  destruct (add_eq (table_of occs) (oc_var o) (oc_start o) (oc_decl o) (of_ok occs)) as (l & -> & E). unfold GetContextualVariables in *.
  fold (oc_name o) in *. destruct (str_eqb (oc_name o) name) eqn:N.
  - apply str_eqb_eq in N. subst name. rewrite get_set_same. cbn [map].
    destruct (vars_get (table_of occs) (oc_name o)) as [l0|] eqn:G.
    + subst l. destruct (tk_lists _ (of_ok occs) _ _ (get_in _ _ _ G)) as (_ & O & _).
      set (l1 := if oc_decl o then l0 else mark_used (r_start (v_range (oc_var o))) (oc_name o) l0).
      assert (B' : map bare l1 = map bare l0) by (unfold l1; destruct (oc_decl o); [reflexivity|apply mark_bare]).
      assert (V : map cv_var l1 = map cv_var l0).
      { apply (f_equal (map (fun x => fst (fst x)))) in B'. rewrite !map_map in B'. exact B'. }
      destruct (insert_split l1 (Ctx (oc_var o) (oc_start o) (oc_decl o) false) (bare_ordered _ _ (eq_sym B') O)) as (a & b & Es & Ei & _).
      rewrite Ei, map_app. cbn [map cv_var]. rewrite <- IH, <- V, Es, map_app. rewrite <- Permutation_middle. apply Permutation_cons_append.
    + subst l. cbn [map cv_var]. rewrite <- IH. reflexivity.
  - rewrite get_set_other by exact N. cbn [map]. rewrite app_nil_r. exact IH.
Qed.

(** ** Scopes and tables *)
Record scopes_ok (d : var_doc) (done : list scope) : Prop := Scopes_ok {
  sk_child : forall i c, In c (children (vd_tables d) i) -> exists t, nth_error (vd_tables d) c = Some t /\ In (Scope i c (vt_range t)) done;
  sk_scope : forall s, In s done -> In (sc_number s) (children (vd_tables d) (sc_outer s)) /\ exists t, nth_error (vd_tables d) (sc_number s) = Some t /\ vt_range t = sc_range s }.
Lemma add_scopes_ok : forall d done i v start decl, scopes_ok d done -> scopes_ok (add_to d i v start decl) done.
Proof.
  intros d done i v start decl [A C]. unfold add_to. constructor; cbn [vd_tables].
  - intros j c I. rewrite children_set_vars in I. destruct (A j c I) as (t & E & X). rewrite set_nth. destruct (Nat.eqb i c); [|eauto].
    rewrite E. cbn. eexists. split; [reflexivity|exact X].
  - intros s I. rewrite children_set_vars. destruct (C s I) as (X & t & E & R). split; [exact X|]. rewrite set_nth. destruct (Nat.eqb i (sc_number s)); [|eauto].
    rewrite E. cbn. eexists. split; [reflexivity|exact R].
Qed.
Lemma push_scopes_ok : forall d next stack occs p r done, doc_ok d next (p :: stack) occs -> scopes_ok d done ->
  scopes_ok (push_table d r) (done ++ [Scope p next r]).
Proof.
  intros d next stack occs p r done K [A C]. pose proof (dk_next _ _ _ _ K) as L0. pose proof (dk_open _ _ _ _ K p (or_introl eq_refl)) as P.
  pose proof (tr_range _ (dk_tree _ _ _ _ K)) as TRg.
  unfold push_table, current. rewrite (dk_stack _ _ _ _ K), rev_involutive, L0.
  set (g := fun t => Table (vt_range t) (vt_vars t) (vt_children t ++ [next])).
  set (ts := set_table (vd_tables d) p g). assert (L : length ts = next) by (unfold ts; rewrite set_length; exact L0).
  assert (CH : forall i, children (ts ++ [Table r [] []]) i = if Nat.eqb p i then children (vd_tables d) i ++ [next] else children (vd_tables d) i).
  { intros i. unfold children. destruct (Nat.lt_ge_cases i next) as [X|X].
    - rewrite nth_error_app1 by lia. unfold ts. rewrite set_nth. destruct (nth_error (vd_tables d) i) eqn:N; [|apply nth_error_None in N; lia]. destruct (Nat.eqb p i); reflexivity.
    - rewrite nth_error_app2 by lia. destruct (Nat.eqb_spec p i); [lia|]. rewrite (proj2 (nth_error_None (vd_tables d) i)) by lia. rewrite L. destruct (i - next)%nat as [|k]; [reflexivity|]. destruct k; reflexivity. }
  assert (NT : forall c t, nth_error (vd_tables d) c = Some t -> exists t', nth_error (ts ++ [Table r [] []]) c = Some t' /\ vt_range t' = vt_range t).
  { intros c t E. assert (X : c < next) by (rewrite <- L0; apply nth_error_Some; congruence). rewrite nth_error_app1 by lia. unfold ts. rewrite set_nth, E.
    destruct (Nat.eqb p c); cbn; eauto. }
  assert (NEW : nth_error (ts ++ [Table r [] []]) next = Some (Table r [] [])) by (rewrite nth_error_app2 by lia; rewrite L, Nat.sub_diag; reflexivity).
  assert (OLD : forall i c, In c (children (vd_tables d) i) -> exists t, nth_error (ts ++ [Table r [] []]) c = Some t /\ In (Scope i c (vt_range t)) (done ++ [Scope p next r])).
  { intros i c I. destruct (A i c I) as (t & E & X). destruct (NT c t E) as (t' & E' & R). exists t'. split; [exact E'|]. rewrite R. apply in_app_iff. auto. }
  constructor; cbn [vd_tables].
  - intros i c I. rewrite CH in I. destruct (Nat.eqb_spec p i) as [<-|NE]; [|exact (OLD i c I)].
    apply in_app_iff in I as [I|[<-|[]]]; [exact (OLD p c I)|]. exists (Table r [] []). split; [exact NEW|]. apply in_app_iff. right. left. reflexivity.
  - intros s I. rewrite CH. apply in_app_iff in I as [I|[<-|[]]].
    + destruct (C s I) as (X & t & E & R). destruct (NT _ t E) as (t' & E' & R'). split; [|exists t'; split; [exact E'|congruence]].
      destruct (Nat.eqb p (sc_outer s)); [apply in_app_iff; auto|exact X].
    + cbn [sc_number sc_outer sc_range]. rewrite Nat.eqb_refl. split; [apply in_app_iff; right; left; reflexivity|]. eauto.
Qed.
Lemma load_both : forall ops d next stack occs top done, doc_ok d next (top :: stack) occs -> scopes_ok d done -> balanced (length stack) ops -> last (top :: stack) 0%nat = 0%nat ->
  exists next', doc_ok (fold_left var_step ops d) next' [0%nat] (occs ++ scoped next (top :: stack) ops) /\
    scopes_ok (fold_left var_step ops d) (done ++ scopes next (top :: stack) ops).
Proof.
  induction ops as [|op ops IH]; intros d next stack occs top done K S B' L; cbn [fold_left scoped scopes balanced] in *.
  - destruct stack; [|discriminate B']. cbn in L. subst top. rewrite !app_nil_r. eauto.
  - destruct op as [r| |v start decl|v]; cbn [var_step].
    + replace (done ++ Scope top next r :: scopes (Datatypes.S next) (next :: top :: stack) ops) with ((done ++ [Scope top next r]) ++ scopes (Datatypes.S next) (next :: top :: stack) ops) by (rewrite <- app_assoc; reflexivity).
      apply (IH _ _ _ _ _ _ (push_ok _ _ _ _ _ r K) (push_scopes_ok _ _ _ _ _ r _ K S)); [exact B'|exact L].
    + destruct stack as [|s stack]; [destruct B'|]. cbn [tl length] in *. apply IH; [| |exact B'|exact L].
      * destruct K as [A B2 C D E T]. constructor; cbn [pop_table vd_tables vd_stack]; auto; [|intros x I; apply C; right; exact I]. rewrite B2. cbn [rev]. apply removelast_last.
      * destruct S as [A C]. constructor; exact A || exact C.
    + unfold current. rewrite (dk_stack _ _ _ _ K), rev_involutive. change ((top, Occ v start decl) :: scoped next (top :: stack) ops) with ([(top, Occ v start decl)] ++ scoped next (top :: stack) ops). rewrite app_assoc.
      apply IH; [|apply add_scopes_ok; exact S|exact B'|exact L]. apply add_doc_ok; [exact K|]. apply (dk_open _ _ _ _ K). left. reflexivity.
    + rewrite (dk_stack _ _ _ _ K), rev_involutive. destruct stack as [|s stack]; [apply IH; assumption|].
      set (x := (top, Occ v (r_end (v_range v)) true)). set (y := (s, Occ v (r_end (v_range v)) false)).
      replace (occs ++ x :: y :: scoped next (top :: s :: stack) ops) with (((occs ++ [x]) ++ [y]) ++ scoped next (top :: s :: stack) ops) by (rewrite <- !app_assoc; reflexivity).
      apply IH; [|repeat apply add_scopes_ok; exact S|exact B'|exact L]. apply add_doc_ok; [apply add_doc_ok; [exact K|]|]; apply (dk_open _ _ _ _ K); [left|right; left]; reflexivity.
Qed.
Lemma root_scopes_ok : forall r, scopes_ok (push_table (VarDoc [] []) r) [].
Proof.
  intros r. constructor; [|intros s []]. intros i c I. cbn in I. unfold children in I. destruct i as [|[|i]]; destruct I.
Qed.
Lemma LoadTables_ok : forall r ops, balanced 0 ops -> exists next, doc_ok (LoadTables r ops) next [0%nat] (scoped 1 [0%nat] ops) /\ scopes_ok (LoadTables r ops) (scopes 1 [0%nat] ops).
Proof. intros r ops Ba. exact (load_both ops _ 1 [] [] 0 [] (root_ok r) (root_scopes_ok r) Ba eq_refl). Qed.
Lemma find_innermost : forall d done pos, tree (vd_tables d) -> scopes_ok d done -> forall fuel i, i < length (vd_tables d) -> length (vd_tables d) <= i + fuel ->
  around done pos i -> innermost done pos (find_table fuel (vd_tables d) pos i).
Proof.
  intros d done pos T S. induction fuel as [|fuel IH]; intros i Li Lf Ar; [lia|]. cbn [find_table].
  destruct (nth_error (vd_tables d) i) as [t|] eqn:E; [|apply nth_error_None in E; lia].
  match goal with |- context [find ?f (vt_children t)] => set (hit := f) end.
  assert (CH : children (vd_tables d) i = vt_children t) by (unfold children; rewrite E; reflexivity).
  destruct (find hit (vt_children t)) as [c|] eqn:F.
  - apply find_some in F as (I & H). rewrite <- CH in I. destruct (tr_range _ T i c I) as (L1 & L2).
    destruct (sk_child _ _ S i c I) as (tc & Ec & X). subst hit. cbn in H. rewrite Ec in H. apply in_range0 in H.
    apply IH; [lia|lia|]. exact (around_function done pos _ X Ar H).
  - split; [exact Ar|]. intros s Is O N. destruct (sk_scope _ _ S s Is) as (X & tc & Ec & R). rewrite O, CH in X.
    pose proof (find_none _ _ F _ X) as H. subst hit. cbn in H. rewrite Ec, R in H. apply in_range0 in N. congruence.
Qed.
Lemma table_at : forall r ops pos, balanced 0 ops -> exists i t, GetVariableTableAt (LoadTables r ops) pos = Some i /\
  nth_error (vd_tables (LoadTables r ops)) i = Some t /\ innermost (scopes 1 [0%nat] ops) pos i /\
  vt_vars t = table_of (sel i (scoped 1 [0%nat] ops)).
Proof.
  intros r ops pos Ba. destruct (LoadTables_ok r ops Ba) as (next & K & S). unfold GetVariableTableAt. rewrite (dk_stack _ _ _ _ K). cbn [rev app].
  pose proof (dk_open _ _ _ _ K 0 (or_introl eq_refl)) as P. pose proof (dk_next _ _ _ _ K) as Ln.
  set (i := find_table _ _ _ _). pose proof (find_innermost _ _ pos (dk_tree _ _ _ _ K) S (length (vd_tables (LoadTables r ops))) 0 ltac:(lia) ltac:(lia) (around_file _ _)) as In_.
  fold i in In_. assert (E : exists t, nth_error (vd_tables (LoadTables r ops)) i = Some t).
  { destruct In_ as (Ar & _). inversion Ar as [H|s Is Ar' H1 H2].
    - destruct (nth_error (vd_tables (LoadTables r ops)) 0) as [t|] eqn:E; [eauto|apply nth_error_None in E; lia].
    - destruct (sk_scope _ _ S s Is) as (_ & t & E & _). exists t. exact E. }
  destruct E as (t & E). exists i, t. split; [reflexivity|]. split; [exact E|]. split; [exact In_|]. exact (dk_vars _ _ _ _ K i t E).
Qed.
Lemma occurrences_sel : forall l i name, occurrences l i name = List.filter (fun o => str_eqb (oc_name o) name) (sel i l).
Proof.
  intros l i name. unfold occurrences, sel. induction l as [|[s o] l IH]; [reflexivity|]. cbn [List.filter fst snd]. destruct (Nat.eqb s i); cbn [andb map List.filter]; [|exact IH].
  cbn [snd]. destruct (str_eqb (oc_name o) name); cbn [map snd]; [apply (f_equal (cons o))|]; exact IH.
Qed.

(** ** The scopes of a tree *)
Section Tree.
Context {TX : Text} {TR : TrimSpace} (d : document).
Variable Q : node -> list var_op -> Prop.
(** which node each new scope belongs to *)
Definition placed_in (n : node) (next next' : nat) (places : list (nat * node)) : Prop :=
  map fst places = seq next (next' - next) /\ next <= next' /\ Forall (fun p => function_node (snd p) /\ below (snd p) n) places.
Definition occurs_in (n : node) (stack : list nat) (places : list (nat * node)) (x : nat * occurrence) : Prop :=
  (nth_error stack 0 = Some (fst x) /\ written d n (oc_var (snd x))) \/
  (nth_error stack 1 = Some (fst x) /\ written d n (oc_var (snd x))) \/
  (exists f, In (fst x, f) places /\ written d f (oc_var (snd x))).
(** what the code of these nodes recorded is all there *)
Definition kept_in (l : list (nat * occurrence)) (ss : list scope) (p : nat * node) : Prop :=
  exists inner stack, Q (snd p) inner /\ balanced 0 inner /\ incl (scoped (S (fst p)) (fst p :: stack) inner) l /\
    incl (scopes (S (fst p)) (fst p :: stack) inner) ss.
Lemma kept_incl : forall l l' ss ss' ps, incl l l' -> incl ss ss' -> Forall (kept_in l ss) ps -> Forall (kept_in l' ss') ps.
Proof.
  intros l l' ss ss' ps I J H. eapply Forall_impl; [|exact H]. intros p (inner & stack & q & Ba & X & Y). exists inner, stack. split; [exact q|]. split; [exact Ba|].
  split; [exact (incl_tran X I)|exact (incl_tran Y J)].
Qed.
Lemma trace_places : forall n ops, trace d Q n ops -> forall next top stack, exists next' places,
  placed_in n next next' places /\
  (forall rest, scoped next (top :: stack) (ops ++ rest) = scoped next (top :: stack) ops ++ scoped next' (top :: stack) rest) /\
  (forall rest, scopes next (top :: stack) (ops ++ rest) = scopes next (top :: stack) ops ++ scopes next' (top :: stack) rest) /\
  Forall (occurs_in n (top :: stack) places) (scoped next (top :: stack) ops) /\
  Forall (fun s => exists f, In (sc_number s, f) places /\ sc_range s = NodeRange d f) (scopes next (top :: stack) ops) /\
  Forall (kept_in (scoped next (top :: stack) ops) (scopes next (top :: stack) ops)) places.
Proof.
  intros n ops H. induction H as [n|n v st dc ops W H IH|n v ops W H IH|n f inner ops Bl F Qf Hi IHi H IH]; intros next top stack.
  - exists next, []. unfold placed_in. rewrite Nat.sub_diag. repeat split; auto; constructor.
  - destruct (IH next top stack) as (next' & places & P & A & C & O & S & K). exists next', places. split; [exact P|].
    split; [intros rest; cbn [app scoped]; rewrite A; reflexivity|]. split; [intros rest; cbn [app scopes]; apply C|]. split; [|split; [exact S|exact (kept_incl _ _ _ _ _ (incl_tl _ (incl_refl _)) (incl_refl _) K)]].
    cbn [scoped]. constructor; [|exact O]. left. split; [reflexivity|exact W].
  - destruct (IH next top stack) as (next' & places & P & A & C & O & S & K). exists next', places. split; [exact P|].
    split; [intros rest; cbn [app scoped]; destruct stack; rewrite A; reflexivity|]. split; [intros rest; cbn [app scopes]; apply C|]. split; [|split; [exact S|cbn [scoped]; destruct stack as [|t stack]; [exact K|exact (kept_incl _ _ _ _ _ (incl_tl _ (incl_tl _ (incl_refl _))) (incl_refl _) K)]]].
    cbn [scoped]. destruct stack as [|t stack]; [exact O|]. constructor; [left; split; [reflexivity|exact W]|]. constructor; [|exact O]. right. left. split; [reflexivity|exact W].
  - destruct (IHi (S next) next (top :: stack)) as (n1 & p1 & (P1 & L1 & F1) & A1 & C1 & O1 & S1 & K1).
    destruct (IH n1 top stack) as (n2 & p2 & (P2 & L2 & F2) & A2 & C2 & O2 & S2 & K2).
    exists n2, ((next, f) :: p1 ++ p2). split; [|split; [|split; [|split; [|split]]]].
    + split; [|split; [lia|]].
      * cbn [map fst]. rewrite map_app, P1, P2. replace (n2 - next) with (S ((n1 - S next) + (n2 - n1))) by lia. cbn [seq]. rewrite seq_app. do 3 f_equal. lia.
      * constructor; [cbn; auto|]. apply Forall_app. split; [|exact F2]. eapply Forall_impl; [|exact F1]. cbn. intros p (X & Y). split; [exact X|exact (below_trans _ _ _ Y Bl)].
    + intros rest. cbn [app scoped]. rewrite <- app_assoc, A1. cbn [app scoped tl]. rewrite A2. rewrite (A1 (CloseScope :: ops)). cbn [scoped tl]. rewrite app_assoc. reflexivity.
    + intros rest. cbn [app scopes]. rewrite <- app_assoc, C1. cbn [app scopes tl]. rewrite C2. rewrite (C1 (CloseScope :: ops)). cbn [scopes tl app]. rewrite app_assoc. reflexivity.
    + cbn [scoped]. rewrite A1. cbn [scoped tl]. apply Forall_app. split.
      * eapply Forall_impl; [|exact O1]. intros x [(E & W)|[(E & W)|(g & G & W)]]; unfold occurs_in; cbn [nth_error] in *.
        -- injection E as E. right. right. exists f. rewrite <- E. split; [left; reflexivity|exact W].
        -- left. split; [exact E|exact (written_below d _ _ _ Bl W)].
        -- right. right. exists g. split; [right; apply in_app_iff; auto|exact W].
      * eapply Forall_impl; [|exact O2]. intros x [X|[X|(g & G & W)]]; [left; exact X|right; left; exact X|]. right. right. exists g. split; [right; apply in_app_iff; auto|exact W].
    + cbn [scopes]. rewrite C1. cbn [scopes tl]. constructor; [cbn; exists f; auto|]. apply Forall_app. split.
      * eapply Forall_impl; [|exact S1]. intros s (g & G & R). exists g. split; [right; apply in_app_iff; auto|exact R].
      * eapply Forall_impl; [|exact S2]. intros s (g & G & R). exists g. split; [right; apply in_app_iff; auto|exact R].
    + cbn [scoped scopes]. rewrite A1, C1. cbn [scoped scopes tl]. constructor; [|apply Forall_app; split].
      * exists inner, (top :: stack). split; [exact Qf|]. split; [exact (trace_balanced0 d Q _ _ Hi)|]. cbn [fst]. split; [apply incl_appl, incl_refl|].
        apply incl_tl, incl_appl, incl_refl.
      * exact (kept_incl _ _ _ _ _ (incl_appl _ (incl_refl _)) (incl_tl _ (incl_appl _ (incl_refl _))) K1).
      * exact (kept_incl _ _ _ _ _ (incl_appr _ (incl_refl _)) (incl_tl _ (incl_appr _ (incl_refl _))) K2).
Qed.
(** the node of the innermost scope *)
Lemma trace_scope_place : forall n ops pos i, trace d Q n ops -> around (scopes 1 [0%nat] ops) pos i ->
  exists f, (f = n /\ i = 0 \/ (function_node f /\ below f n /\ inside pos (NodeRange d f)) /\ kept_in (scoped 1 [0%nat] ops) (scopes 1 [0%nat] ops) (i, f)) /\
    forall o, In (i, o) (scoped 1 [0%nat] ops) -> written d f (oc_var o).
Proof.
  intros n ops pos i H Ar. destruct (trace_places n ops H 1 0 []) as (next & places & (P & L & F) & _ & _ & O & S & K). rewrite Forall_forall in O, S, K.
  inversion Ar as [E|s Is Ar' Ins E]; subst i.
  - exists n. split; [left; split; reflexivity|]. intros o I. specialize (O _ I). cbn [fst snd] in O.
    destruct O as [(_ & W)|[(E' & _)|(g & G & _)]]; [exact W|discriminate E'|]. apply (in_map fst) in G. rewrite P in G. apply in_seq in G. cbn in G. lia.
  - destruct (S s Is) as (f & If & R). pose proof F as F'. rewrite Forall_forall in F'. destruct (F' _ If) as (Fn & Bl). cbn [snd] in Fn, Bl.
    exists f. split; [right; rewrite <- R; split; [auto|exact (K _ If)]|]. intros o I. specialize (O _ I). cbn [fst snd] in O.
    assert (Num : In (sc_number s) (seq 1 (next - 1))) by (rewrite <- P; exact (in_map fst _ _ If)). apply in_seq in Num.
    destruct O as [(E' & W)|[(E' & _)|(g & G & W)]]; [injection E' as E'; lia|discriminate E'|].
    assert (Nd : NoDup (map fst places)) by (rewrite P; apply seq_NoDup).
    assert (g = f). { clear -Nd If G. induction places as [|(a, b) l IH]; [destruct G|]. cbn in Nd. inversion Nd as [|x y N1 N2]; subst.
      destruct If as [E1|I1], G as [E2|I2]; try congruence; [| |exact (IH I2 I1 N2)].
      - injection E1 as -> ->. apply (in_map fst) in I2. contradiction.
      - injection E2 as -> ->. apply (in_map fst) in I1. contradiction. }
    subst g. exact W.
Qed.
Lemma trace_scope_node : forall n ops pos i, trace d Q n ops -> around (scopes 1 [0%nat] ops) pos i ->
  exists f, (f = n \/ function_node f /\ below f n /\ inside pos (NodeRange d f)) /\
    forall o, In (i, o) (scoped 1 [0%nat] ops) -> written d f (oc_var o).
Proof.
  intros n ops pos i H Ar. destruct (trace_scope_place n ops pos i H Ar) as (f & [(E & _)|(X & _)] & W); exists f; split; auto.
Qed.
End Tree.
