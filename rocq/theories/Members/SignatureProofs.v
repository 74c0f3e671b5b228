(** The functions whose parameters are shown. *)
From Coq Require Import String.
From Coq Require Import List Bool Arith ZArith Lia.
From Coq.Strings Require Import Byte.
From Verif Require Import Base.Bytes Base.BytesProofs Symbols.Symbols Symbols.KeysModel Store.FilterModel Store.StoreModel Store.StoreSpec Store.LookupProofs Store.LookupKinds
  Query.QueryModel Query.QueryStoreModel Query.QuerySpec Query.QueryProofs Query.QueryMembers Query.QueryClaimProofs Query.QueryHistorySpec Query.QueryHistory
  Members.MemberModel Members.MemberSpec Members.MemberProofs Members.MemberHistory Members.SignatureModel Claims.Members.
Import ListNotations.
Open Scope list_scope.

(** ** Collecting *)
Section Collect.
Context {M : Type}.
Variable choose : inherited M -> list (with_scope M).
Lemma append_each_app : forall {A} (get : query M -> A -> option nat -> option (query M * inherited M)) l q found,
  append_each choose get q found l = option_map (fun r => (fst r, found ++ snd r)) (append_each choose get q [] l).
Proof.
  intros A get l. induction l as [|x l IH]; intros q found; cbn [append_each]; [cbn [option_map fst snd]; rewrite app_nil_r; reflexivity|].
  destruct (get q x None) as [(q1, r)|]; [|reflexivity]. rewrite (IH q1 (found ++ choose r)), (IH q1 ([] ++ choose r)).
  destruct (append_each choose get q1 [] l) as [(q2, l2)|]; [|reflexivity]. cbn. rewrite app_assoc. reflexivity.
Qed.
Variables (get_class : query M -> class -> option nat -> option (query M * inherited M))
          (get_interface : query M -> interface -> option nat -> option (query M * inherited M))
          (db : database M) (interfaces : bool).
Lemma append_types_app : forall types q found,
  append_types choose get_class get_interface db interfaces q found types = option_map (fun r => (fst r, found ++ snd r)) (append_types choose get_class get_interface db interfaces q [] types).
Proof.
  induction types as [|t types IH]; intros q found; cbn [append_types]; [cbn [option_map fst snd]; rewrite app_nil_r; reflexivity|].
  rewrite (append_each_app _ _ q found). destruct (append_each choose get_class q [] _) as [(q1, l1)|]; [|reflexivity]. cbn [option_map fst snd].
  rewrite (append_each_app _ _ q1 (found ++ l1)), (append_each_app _ _ q1 l1). destruct (append_each choose get_interface q1 [] _) as [(q2, l2)|]; [|reflexivity]. cbn [option_map fst snd].
  rewrite (IH q2 ((found ++ l1) ++ l2)), (IH q2 (l1 ++ l2)). destruct (append_types _ _ _ _ _ q2 [] types) as [(q3, l3)|]; [|reflexivity]. cbn. rewrite !app_assoc. reflexivity.
Qed.
(** each thing found comes from one of the searches; [I]: an invariant of the query *)
Section From.
Variables (I : query M -> Prop) (P : gostr -> inherited M -> Prop).
Hypothesis PC : forall n q c q' r, In c (db_classes db n) -> I q -> get_class q c None = Some (q', r) -> I q' /\ P n r.
Hypothesis PI : interfaces = true -> forall n q c q' r, In c (db_interfaces db n) -> I q -> get_interface q c None = Some (q', r) -> I q' /\ P n r.
Lemma append_each_from : forall {A} (get : query M -> A -> option nat -> option (query M * inherited M)) (Q : inherited M -> Prop) l,
  (forall q x q' r, In x l -> I q -> get q x None = Some (q', r) -> I q' /\ Q r) ->
  forall q q' res, I q -> append_each choose get q [] l = Some (q', res) -> I q' /\ forall y, In y res -> exists r, Q r /\ In y (choose r).
Proof.
  intros A get Q l. induction l as [|x l IH]; intros G q q' res Iq E; cbn [append_each] in E; [injection E as <- <-; split; [exact Iq|intros y []]|].
  destruct (get q x None) as [(q1, r)|] eqn:Gx; [|discriminate E]. destruct (G _ _ _ _ (or_introl eq_refl) Iq Gx) as (I1 & Q1).
  rewrite append_each_app in E. destruct (append_each choose get q1 [] l) as [(q2, l2)|] eqn:E2; [|discriminate E]. injection E as <- <-.
  apply IH in E2 as (I2 & H); [|intros q0 y q0' r0 Y; apply G; right; exact Y|exact I1]. split; [exact I2|]. intros y Y. cbn [fst snd app] in Y. apply in_app_or in Y as [Y|Y]; [|exact (H y Y)]. eauto.
Qed.
Lemma append_types_from : forall types q q' res, I q -> append_types choose get_class get_interface db interfaces q [] types = Some (q', res) ->
  forall y, In y res -> exists t r, In t types /\ P (ts_fqn t) r /\ In y (choose r).
Proof.
  induction types as [|t types IH]; intros q q' res Iq E; cbn [append_types] in E; [injection E as <- <-; intros y []|].
  destruct (append_each choose get_class q [] _) as [(q1, l1)|] eqn:E1; [|discriminate E].
  apply (append_each_from _ (P (ts_fqn t))) in E1 as (I1 & H1); [| |exact Iq]. 2: { intros q0 x q0' r X. apply PC. exact X. }
  rewrite append_each_app in E. destruct (append_each choose get_interface q1 [] _) as [(q2, l2)|] eqn:E2; [|discriminate E]. cbn [option_map fst snd] in E.
  apply (append_each_from _ (P (ts_fqn t))) in E2 as (I2 & H2); [| |exact I1]. 2: { intros q0 x q0' r X. destruct interfaces; [|destruct X]. apply (PI eq_refl). exact X. }
  rewrite append_types_app in E. destruct (append_types _ _ _ _ _ q2 [] types) as [(q3, l3)|] eqn:E3; [|discriminate E]. injection E as <- <-. cbn [fst snd].
  intros y Y. rewrite !in_app_iff in Y. destruct Y as [[Y|Y]|Y].
  - destruct (H1 y Y) as (r & Pr & Yr). exists t, r. split; [left; reflexivity|auto].
  - destruct (H2 y Y) as (r & Pr & Yr). exists t, r. split; [left; reflexivity|auto].
  - destruct (IH _ _ _ I2 E3 y Y) as (t' & r & It & Pr & Yr). exists t', r. split; [right; exact It|auto].
Qed.
End From.
End Collect.

(** ** It ends *)
Section Ends.
Context {M : Type} {MM : Member M}.
Variable choose : inherited M -> list (with_scope M).
Definition ends_alone {A} (get : nat -> query M -> A -> option nat -> option (query M * inherited M)) : Prop :=
  forall q x, exists n r, forall fuel, (n <= fuel)%nat -> get fuel q x None = Some r.
Lemma append_each_ends : forall {A} (get : nat -> query M -> A -> option nat -> option (query M * inherited M)) l, (l = [] \/ ends_alone get) ->
  forall q found, exists n r, forall fuel, (n <= fuel)%nat -> append_each choose (get fuel) q found l = Some r.
Proof.
  intros A get l E. induction l as [|x l IH]; intros q found; [exists 0%nat, (q, found); reflexivity|]. destruct E as [E|E]; [discriminate E|].
  destruct (E q x) as (n & (q1, r) & H). destruct (IH (or_intror E) q1 (found ++ choose r)) as (n2 & r2 & H2). exists (Nat.max n n2), r2. intros fuel F. cbn [append_each].
  rewrite H by lia. apply H2. lia.
Qed.
Lemma append_types_ends : forall (gc : nat -> query M -> class -> option nat -> option (query M * inherited M)) gi db interfaces, ends_alone gc -> (interfaces = false \/ ends_alone gi) ->
  forall types q found, exists n r, forall fuel, (n <= fuel)%nat -> append_types choose (gc fuel) (gi fuel) db interfaces q found types = Some r.
Proof.
  intros gc gi db interfaces EC EI. induction types as [|t types IH]; intros q found; [exists 0%nat, (q, found); reflexivity|].
  destruct (append_each_ends gc (db_classes db (ts_fqn t)) (or_intror EC) q found) as (n1 & (q1, f1) & H1).
  destruct (append_each_ends gi (if interfaces then db_interfaces db (ts_fqn t) else [])) with (q := q1) (found := f1) as (n2 & (q2, f2) & H2); [destruct EI as [->|EI]; auto|].
  destruct (IH q2 f2) as (n3 & r & H3). exists (Nat.max n1 (Nat.max n2 n3)), r. intros fuel F. cbn [append_types]. rewrite H1 by lia. rewrite H2 by lia. apply H3. lia.
Qed.
End Ends.
Section Alone.
Context {M : Type} {MM : Member M}.
Variables (relate marks traits : bool) (db : database M) (name : gostr).
Lemma class_alone : forall fuel (q : query M) c, GetClassMembers relate marks traits db fuel q c name None = GetClassMembers relate marks traits db fuel (snd (alloc q)) c name (Some (length (q_maps q))).
Proof. intros fuel q c. unfold GetClassMembers. cbn [or_alloc alloc snd]. reflexivity. Qed.
Lemma interface_alone : forall fuel (q : query M) c, GetInterfaceMembers relate db fuel q c name None = GetInterfaceMembers relate db fuel (snd (alloc q)) c name (Some (length (q_maps q))).
Proof. intros fuel q c. unfold GetInterfaceMembers. cbn [or_alloc alloc snd]. reflexivity. Qed.
Lemma alloc_valid : forall q : query M, (length (q_maps q) < length (q_maps (snd (alloc q))))%nat.
Proof. intros q. cbn. rewrite app_length. cbn. lia. Qed.
Lemma class_ends_alone : finite_db db -> (marks = true \/ acyclic db) -> ends_alone (fun fuel q c s => GetClassMembers relate marks traits db fuel q c name s).
Proof.
  intros FD MA q c. destruct (class_ends relate traits db marks name FD MA (snd (alloc q)) c (length (q_maps q)) (alloc_valid q)) as (n & r & _ & H). exists n, r. intros fuel F. rewrite class_alone. exact (H fuel F).
Qed.
Lemma interface_ends_alone : finite_db db -> ends_alone (fun fuel q c s => GetInterfaceMembers relate db fuel q c name s).
Proof.
  intros FD q c. destruct (interface_ends relate db name FD (snd (alloc q)) c (length (q_maps q)) (alloc_valid q)) as (n & r & _ & H). exists n, r. intros fuel F. rewrite interface_alone. exact (H fuel F).
Qed.
End Alone.

Lemma constructor_first : forall r : inherited method, constructor r = firstn 1 (reduce (fun m => Z.eqb (mb_visibility m) Public) (fun x => x) [] (ih_members r)).
Proof.
  intros [l rel s]. unfold constructor, ReduceFirst. cbn [ih_members]. induction l as [|x l IH]; [reflexivity|]. cbn [find reduce set_mem existsb].
  destruct (Z.eqb (mb_visibility (ws_member x)) Public); [reflexivity|exact IH].
Qed.

(** ** After a history *)
Section History.
Context {T : Text} {X : XorFilter} (TOK : text_ok T).
Variables (root : gostr) (h : list event) (st : store).
Hypothesis OK : Forall event_ok h.
Hypothesis RUN : run root h = Some st.
Variable name : gostr.
Hypothesis NN : ~ In NUL name.
Let w := workspace h (method_named h).
Let SW := method_world TOK root h st OK RUN name NN.
Let named1 := store_classes_named TOK root h st OK RUN (Query_GetMethods st).
Let named2 := store_interfaces_named TOK root h st OK RUN (Query_GetMethods st).
Let named3 := store_traits_named TOK root h st OK RUN (Query_GetMethods st).
Lemma called_sound : forall fuel gi interfaces choose q types q' l, (interfaces = true -> gi = get_interface_method st fuel name) -> asked false true true (method_db st) q ->
  append_types choose (get_method st fuel name) gi (method_db st) interfaces q [] types = Some (q', l) ->
  forall y, In y l -> exists t r, In t types /\ In y (choose r) /\ ih_relations r = [] /\
    forall x, In x (ih_members r) -> has_member w interfaces false (ts_fqn t) name (ws_member x) (ws_scope x).
Proof.
  intros fuel gi interfaces choose q types q' l GI A E y Y.
  destruct (append_types_from choose (get_method st fuel name) gi (method_db st) interfaces (true_caches false (method_db st))
    (fun n r => ih_relations r = [] /\ forall x, In x (ih_members r) -> has_member w interfaces false n name (ws_member x) (ws_scope x))) with (types := types) (q := q) (q' := q') (res := l) (y := y)
    as (t & r & It & (P1 & P2) & Yr).
  - intros n q0 c q1 r Ic C G. destruct (class_true false true true (method_db st) named1 named2 named3 fuel q0 c n name None q1 r Ic C G) as (C1 & B1 & B2). split; [exact C1|]. split; [exact (no_relations _ B2)|].
    intros x Ix. destruct (B1 x Ix) as (d & D1 & _ & D3). apply (has_member_workspace h st (Query_GetMethods st) (method_named h) name SW). eapply of_class; [exact D1|exact D3].
  - intros EI n q0 c q1 r Ic C G. rewrite (GI EI) in G. destruct (interface_true false (method_db st) named2 fuel q0 c n name None q1 r Ic C G) as (C1 & B1 & B2). split; [exact C1|]. split; [exact (no_relations _ B2)|].
    intros x Ix. destruct (B1 x Ix) as (d & D1 & D3). apply (has_member_workspace h st (Query_GetMethods st) (method_named h) name SW). eapply of_interface; [exact EI|exact D1|exact D3].
  - exact (asked_true false true true (method_db st) named1 named2 named3 q A).
  - exact E.
  - exact Y.
  - exists t, r. auto.
Qed.
Hypothesis UN : unique_names h.
Section Chosen.
Variables (ok : relation_map -> method -> bool) (adjust : with_scope method -> with_scope method).
Hypothesis ADJ : forall x, ws_member (adjust x) = ws_member x /\ ws_scope (adjust x) = ws_scope x.
Variables (may : method -> Prop).
Hypothesis MAY : forall m, ok [] m = true <-> may m.
Lemma class_called : forall fuel gi interfaces choose q t ts c q' l, unasked q name -> class_named h (ts_fqn t) c ->
  append_types choose (get_method st fuel name) gi (method_db st) interfaces q [] (t :: ts) = Some (q', l) -> asked false true true (method_db st) q ->
  exists r rest, l = choose r ++ rest /\ (ts = [] -> rest = []) /\ ih_relations r = [] /\ class_offers w c name may (reduce (ok (ih_relations r)) adjust [] (ih_members r)).
Proof.
  intros fuel gi interfaces choose q t ts c q' l U C E A. cbn [append_types] in E.
  destruct (only_class TOK root h st OK RUN (Query_GetMethods st) (method_named h) name SW UN _ _ C) as (EC & EI). change (store_db (Query_GetMethods st) st) with (method_db st) in *.
  rewrite EC, EI in E. assert (EI' : (if interfaces then [] else []) = @nil interface) by (destruct interfaces; reflexivity). rewrite EI' in E. cbn [append_each app] in E.
  destruct (get_method st fuel name q c None) as [(q1, r)|] eqn:G; [|discriminate E]. rewrite append_types_app in E.
  destruct (append_types _ _ _ _ _ q1 [] ts) as [(q2, l2)|] eqn:E2; [|discriminate E]. injection E as _ <-. cbn [snd]. exists r, l2. split; [reflexivity|]. split.
  { intros ->. injection E2 as _ <-. reflexivity. }
  assert (Ic : In c (db_classes (method_db st) (ts_fqn t))) by (rewrite EC; left; reflexivity).
  assert (RL : ih_relations r = []).
  { destruct (class_true false true true (method_db st) named1 named2 named3 fuel q c (ts_fqn t) name None q1 r Ic (asked_true false true true (method_db st) named1 named2 named3 q A) G) as (_ & _ & B2). exact (no_relations _ B2). }
  split; [exact RL|]. apply offers_any. apply (class_chosen TOK root h st OK RUN (Query_GetMethods st) (method_named h) name SW false true true fuel (get_method st fuel name) (fun _ _ => 0%Z) [] (fun _ _ _ => search_nothing _ _ _ _)
    ok adjust ADJ may may) with (q := q) (n := ts_fqn t) (q2 := q1); auto.
  - intros rel m GR K. rewrite (no_relations rel GR) in K. apply MAY. exact K.
  - intros rel m GR K. rewrite (no_relations rel GR). apply MAY. exact K.
  - rewrite RL. intros x y [].
Qed.
Lemma interface_called : forall fuel choose q t ts i q' l, unasked q name -> interface_named h (ts_fqn t) i ->
  append_types choose (get_method st fuel name) (get_interface_method st fuel name) (method_db st) true q [] (t :: ts) = Some (q', l) -> asked false true true (method_db st) q ->
  exists r rest, l = choose r ++ rest /\ (ts = [] -> rest = []) /\ ih_relations r = [] /\ interface_offers w i name may (reduce (ok (ih_relations r)) adjust [] (ih_members r)).
Proof.
  intros fuel choose q t ts i q' l U C E A. cbn [append_types] in E.
  destruct (only_interface TOK root h st OK RUN (Query_GetMethods st) (method_named h) name SW UN _ _ C) as (EC & EI). change (store_db (Query_GetMethods st) st) with (method_db st) in *.
  rewrite EC, EI in E. cbn [append_each app] in E.
  destruct (get_interface_method st fuel name q i None) as [(q1, r)|] eqn:G; [|discriminate E]. rewrite append_types_app in E.
  destruct (append_types _ _ _ _ _ q1 [] ts) as [(q2, l2)|] eqn:E2; [|discriminate E]. injection E as _ <-. cbn [snd]. exists r, l2. split; [reflexivity|]. split.
  { intros ->. injection E2 as _ <-. reflexivity. }
  assert (Ic : In i (db_interfaces (method_db st) (ts_fqn t))) by (rewrite EI; left; reflexivity).
  assert (RL : ih_relations r = []).
  { destruct (interface_true false (method_db st) named2 fuel q i (ts_fqn t) name None q1 r Ic (asked_true false true true (method_db st) named1 named2 named3 q A) G) as (_ & _ & B2). exact (no_relations _ B2). }
  split; [exact RL|]. apply offers_any. apply (interface_chosen TOK root h st OK RUN (Query_GetMethods st) (method_named h) name SW false true fuel (get_interface_method st fuel name) (fun _ _ => 0%Z) [] (fun _ _ _ _ => search_nothing _ _ _ _)
    ok adjust ADJ may may) with (q := q) (n := ts_fqn t) (q2 := q1); auto.
  - intros rel m GR K. rewrite (no_relations rel GR) in K. apply MAY. exact K.
  - intros rel m GR K. rewrite (no_relations rel GR). apply MAY. exact K.
  - rewrite RL. intros x y [].
Qed.
End Chosen.
End History.
