(** Claims about the outline of an analysed file. *)
From Coq Require Import String.
From Coq Require Import List Bool ZArith.
From Coq.Strings Require Import Byte.
From Verif Require Import Base.Bytes Base.Protocol Symbols.Symbols Symbols.KeysModel Text.TextModel Types.TypesModel Rpc.StreamModel Rpc.StreamSpec
  Ide.TreeModel Ide.TreeSpec Store.Examples
  Analyse.SyntaxModel Analyse.AnalyseModel Analyse.AnalyseSpec Analyse.SpecProofs Analyse.AnalyseProofs Analyse.DeclareSpec Analyse.Examples
  Claims.Analyse Whole.OutlineModel Whole.OutlineSpec Whole.OutlineProofs.
Import ListNotations.
Open Scope list_scope.
Open Scope nat_scope.

(** ** C95 the outline of a file shows what is declared in it *)
(** Every entry, with the entries it is shown under, is a declaration written
    in the file, inside the declarations it is shown under. *)
Theorem C95_written : forall {TX : Text} {TR : TrimSpace} description d s, trim_ok TR -> analyse d = Done tt s ->
  forall above x, In (above, x) (all_entries (file_outline description s)) -> outlined d (d_root d) (above ++ [x]).
Proof.
  intros TX TR description d s TOK E above x I. rewrite all_shown in I. apply in_map_iff in I as ((ar & y) & Ey & I). cbn in Ey. injection Ey as <- <-.
  apply in_flat_map in I as (z & Iz & I). apply in_map_iff in Iz as (sy & <- & Is).
  destruct (declared_path description d sy [] (d_root d) (proj1 (Forall_forall _ _) (C70_symbols_come_from_the_file d s TOK E) sy Is) ar y I) as (rest & Er & O).
  cbn in Er. subst rest. rewrite map_app in O. exact O.
Qed.
Print Assumptions C95_written.

(** [x] is an entry for [n], a declaration of the kind [k], with this name *)
Definition entry_for (d : document) (n : node) (k : akind) (name : gostr) (x : doc_data) : Prop :=
  protocol_kind k = Some (ds_kind x) /\ ds_name x = name /\ ds_range x = NodeRange d n.
(** constants are shown with their namespace *)
Definition with_namespace (k : akind) (ns name : gostr) : gostr := match k with AConst => qualify ns name | _ => name end.
Lemma declares_kind_shown : forall n k, declares_kind n k -> declares k = true.
Proof. intros n k D. unfold declares_kind in D. destruct (node_type n) as [t|]; [|destruct D]. destruct t; try (destruct D; fail); subst k; reflexivity. Qed.
Lemma class_like_shown : forall n k, is_class_like n -> declares_kind n k -> declares k = true /\ is_block k = true /\ (forall ns name, with_namespace k ns name = name) /\ k <> ADefine /\ k <> AConst.
Proof. intros n k C D. unfold declares_kind, is_class_like in *. destruct (node_type n) as [t|]; [|destruct D]. destruct t; try (destruct C; fail); try (destruct D; fail); subst k; repeat split; discriminate. Qed.

(** A class, an interface, a trait, a function or a constant on the top level of
    the file (see C71) is shown on the top level of the outline. *)
Theorem C95_declaration_partial : forall {TX : Text} {TR : TrimSpace} description d s ns n k name, trim_ok TR -> namespaces_outside d -> analyse d = Done tt s ->
  In (ns, n) (statements d) -> declares_kind n k -> name_of d n = Some name -> plain_name name ->
  exists x, In ([], x) (all_entries (file_outline description s)) /\ entry_for d n k (with_namespace k ns name) x.
Proof.
  intros TX TR description d s ns n k name TOK O E I K Nm Pl.
  destruct (C71_declaration_found_partial d s ns n k name TOK O E I K Nm Pl) as (b & a & inside & af & Eo & Ka & F & Or & P).
  pose proof (declares_kind_shown n k K) as D. rewrite <- Ka in D. exists (shown (data_of description a)). split; [exact (top_shown description s b a inside af Eo D)|].
  destruct (data_entry description a D) as (X & Y & Z). rewrite Ka in X, Y. split; [exact X|split; [|rewrite Z; apply P]]. rewrite Y. unfold shown_name, with_namespace.
  destruct k; try exact F; try exact Or. exfalso. unfold declares_kind in K. destruct (node_type n) as [t|]; [|destruct K]. destruct t; try (destruct K; fail); discriminate K.
Qed.
Print Assumptions C95_declaration_partial.
(** So is a call of define, with the namespace. *)
Theorem C95_define_partial : forall {TX : Text} {TR : TrimSpace} description d s ns kids name, trim_ok TR -> namespaces_outside d -> analyse d = Done tt s ->
  In (ns, Ph PhFunctionCallExpression kids) (statements d) -> calls_define d kids -> quoted d (first_argument kids) name -> plain_name name ->
  exists x, In ([], x) (all_entries (file_outline description s)) /\ entry_for d (Ph PhFunctionCallExpression kids) ADefine (qualify ns name) x.
Proof.
  intros TX TR description d s ns kids name TOK O E I K Nm Pl.
  destruct (C71_define_found_partial d s ns kids name TOK O E I K Nm Pl) as (b & a & inside & af & Eo & Ka & F & Or & P).
  assert (D : declares (a_kind a) = true) by (rewrite Ka; reflexivity). exists (shown (data_of description a)). split; [exact (top_shown description s b a inside af Eo D)|].
  destruct (data_entry description a D) as (X & Y & Z). rewrite Ka in X, Y. split; [exact X|split; [|rewrite Z; apply P]]. rewrite Y. exact F.
Qed.
Print Assumptions C95_define_partial.

(** The members of such a class, interface or trait are shown under it. *)
Definition member_entry {TX : Text} {TR : TrimSpace} (description : adata -> gostr) (d : document) (s : state) (n : node) (name : gostr) (m : node) (k : akind) (member : gostr) : Prop :=
  exists ck c x, In ([c], x) (all_entries (file_outline description s)) /\ declares_kind n ck /\ entry_for d n ck name c /\ entry_for d m k member x.
Lemma member_entered : forall {TX : Text} {TR : TrimSpace} description d s ns n name part syms m k member b1 a kids b2, is_class_like n ->
  reported_members d s ns n name part syms -> syms = b1 ++ ASym a kids :: b2 -> a_kind a = k -> declares k = true -> k <> AConst -> k <> ADefine -> sits_at d m a -> a_name a = TS member member 0 ->
  member_entry description d s n name m k member.
Proof.
  intros TX TR description d s ns n name part syms m k member b1 a kids b2 C (b & c & inside & af & e1 & e2 & Eo & Kc & Pc & Fc & Oc & Ei) Es Ka D N1 N2 P Nm.
  destruct (class_like_shown n _ C Kc) as (Dc & Bc & _ & M1 & M2). rewrite <- Ka in D.
  exists (a_kind c), (shown (data_of description c)), (shown (data_of description a)). split.
  { apply (member_shown description s b c inside af (e1 ++ b1) a kids (b2 ++ e2) Eo Dc Bc); [rewrite Ei, Es, <- !app_assoc; reflexivity|exact D]. }
  split; [exact Kc|]. destruct (data_entry description c Dc) as (X & Y & Z). destruct (data_entry description a D) as (X' & Y' & Z'). split.
  - split; [exact X|split; [|rewrite Z; apply Pc]]. rewrite Y. unfold shown_name. destruct (a_kind c); try exact Oc; [destruct (M2 eq_refl)|destruct (M1 eq_refl)].
  - rewrite Ka in X', Y'. split; [exact X'|split; [|rewrite Z'; apply P]]. rewrite Y'. unfold shown_name. rewrite Nm. destruct k; reflexivity.
Qed.
Theorem C95_methods_partial : forall {TX : Text} {TR : TrimSpace} description d s ns n name kids method, trim_ok TR -> namespaces_outside d -> analyse d = Done tt s ->
  In (ns, n) (statements d) -> is_class_like n -> name_of d n = Some name -> plain_name name ->
  In (Ph PhMethodDeclaration kids) (parts n) -> name_of d (Ph PhMethodDeclaration kids) = Some method ->
  member_entry description d s n name (Ph PhMethodDeclaration kids) AMethod method.
Proof.
  intros TX TR description d s ns n name kids method TOK O E I K Nm Pl Mm Em.
  destruct (members_of d s ns n name _ TOK O E I K Nm Pl Mm) as (syms & Rm & a & inside & Es & _ & Ka & Pa & _ & _ & Na & _).
  apply (member_entered description d s ns n name _ syms _ AMethod method [] a inside [] K Rm Es Ka); try discriminate; [reflexivity|exact Pa|exact (Na method Em)].
Qed.
Print Assumptions C95_methods_partial.
Theorem C95_properties_partial : forall {TX : Text} {TR : TrimSpace} description d s ns n name kids mods e property, trim_ok TR -> namespaces_outside d -> analyse d = Done tt s ->
  In (ns, n) (statements d) -> is_class_like n -> name_of d n = Some name -> plain_name name ->
  In (Ph PhPropertyDeclaration kids) (parts n) -> In (mods, e) (properties kids) -> name_of d e = Some property ->
  member_entry description d s n name e AProperty property.
Proof.
  intros TX TR description d s ns n name kids mods e property TOK O E I K Nm Pl Mm Me Em.
  destruct (members_of d s ns n name _ TOK O E I K Nm Pl Mm) as (syms & Rm & segs & Es & F).
  destruct (Forall2_in _ _ _ _ _ _ F Me) as (b & seg & af & Ec & (value & a & -> & _ & Ka & Pa & _ & _ & Na & _)). cbn [fst snd] in *.
  apply (member_entered description d s ns n name _ syms e AProperty property (b ++ value) a [] af K Rm); try discriminate; [rewrite Es, Ec, <- !app_assoc; reflexivity|exact Ka|reflexivity|exact Pa|exact (Na property Em)].
Qed.
Print Assumptions C95_properties_partial.
Theorem C95_constants_partial : forall {TX : Text} {TR : TrimSpace} description d s ns n name kids mods e constant, trim_ok TR -> namespaces_outside d -> analyse d = Done tt s ->
  In (ns, n) (statements d) -> is_class_like n -> name_of d n = Some name -> plain_name name ->
  In (Ph PhClassConstDeclaration kids) (parts n) -> In (mods, e) (class_consts kids) -> name_of d e = Some constant ->
  member_entry description d s n name e AClassConst constant.
Proof.
  intros TX TR description d s ns n name kids mods e constant TOK O E I K Nm Pl Mm Me Em.
  destruct (members_of d s ns n name _ TOK O E I K Nm Pl Mm) as (syms & Rm & segs & Es & F).
  destruct (Forall2_in _ _ _ _ _ _ F Me) as (b & seg & af & Ec & (value & a & -> & _ & Ka & Pa & _ & _ & Na & _)). cbn [fst snd] in *.
  apply (member_entered description d s ns n name _ syms e AClassConst constant (b ++ value) a [] af K Rm); try discriminate; [rewrite Es, Ec, <- !app_assoc; reflexivity|exact Ka|reflexivity|exact Pa|exact (Na constant Em)].
Qed.
Print Assumptions C95_constants_partial.

(** Two such declarations are shown in the order they are written in. *)
Lemma declaration_segment : forall {TX : Text} d ns n seg k name, reported d ns n seg -> declares_kind n k -> name_of d n = Some name -> plain_name name ->
  exists a inside, seg = [ASym a inside] /\ a_kind a = k /\ a_name a = TS (qualify ns name) name 0 /\ sits_at d n a.
Proof.
  intros TX d ns n seg k name (_ & Rp) K Nm Pl.
  assert (X : exists x inside, seg = [ASym x inside] /\ declares_kind n (a_kind x) /\ sits_at d n x /\ a_name x = TS (qualify ns name) name 0).
  { destruct n as [ty kids|t|u]; try (destruct K; fail). destruct ty; try (destruct K; fail); destruct Rp as (x & inside & Sx & Kx & Px & Nx).
    all: exists x, inside; split; [exact Sx|split; [exact Kx|split; [exact Px|]]]; specialize (Nx name Nm Pl); try exact Nx; exact (proj1 Nx). }
  destruct X as (x & inside & Sx & Kx & Px & Nx). exists x, inside. split; [exact Sx|split; [|split; [exact Nx|exact Px]]].
  unfold declares_kind in K, Kx. destruct (node_type n) as [ty|]; [|destruct K]. destruct ty; try (destruct K; fail); congruence.
Qed.
Lemma declaration_entry : forall description d ns n k name a, declares_kind n k -> a_kind a = k -> a_name a = TS (qualify ns name) name 0 -> sits_at d n a ->
  entry_for d n k (with_namespace k ns name) (shown (data_of description a)).
Proof.
  intros description d ns n k name a K Ka Na P. pose proof (declares_kind_shown n k K) as D. rewrite <- Ka in D.
  destruct (data_entry description a D) as (X & Y & Z). rewrite Ka, Na in Y. rewrite Ka in X. split; [exact X|split; [|rewrite Z; exact P]]. rewrite Y. unfold shown_name, with_namespace.
  destruct k; try reflexivity. exfalso. unfold declares_kind in K. destruct (node_type n) as [t|]; [|destruct K]. destruct t; try (destruct K; fail); discriminate K.
Qed.
Theorem C95_order_partial : forall {TX : Text} {TR : TrimSpace} description d s l1 ns1 n1 l2 ns2 n2 l3 k1 name1 k2 name2,
  trim_ok TR -> namespaces_outside d -> analyse d = Done tt s ->
  statements d = l1 ++ (ns1, n1) :: l2 ++ (ns2, n2) :: l3 ->
  declares_kind n1 k1 -> name_of d n1 = Some name1 -> plain_name name1 -> declares_kind n2 k2 -> name_of d n2 = Some name2 -> plain_name name2 ->
  exists e1 x1 e2 x2 e3, all_entries (file_outline description s) = e1 ++ ([], x1) :: e2 ++ ([], x2) :: e3 /\
    entry_for d n1 k1 (with_namespace k1 ns1 name1) x1 /\ entry_for d n2 k2 (with_namespace k2 ns2 name2) x2.
Proof.
  intros TX TR description d s l1 ns1 n1 l2 ns2 n2 l3 k1 name1 k2 name2 TOK O E Es K1 N1 P1 K2 N2 P2.
  destruct (C71_statements_partial d s TOK O E) as (segs & Eo & F). rewrite Es in F.
  apply Forall2_app_inv_l in F as (s1 & r1 & _ & F & ->). inversion F as [|? g1 ? r2 R1 F2]; subst. apply Forall2_app_inv_l in F2 as (s2 & r3 & _ & F3 & ->). inversion F3 as [|? g2 ? s3 R2 _]; subst. cbn [fst snd] in R1, R2.
  destruct (declaration_segment d ns1 n1 g1 k1 name1 R1 K1 N1 P1) as (a1 & i1 & -> & Ka1 & Na1 & Pa1).
  destruct (declaration_segment d ns2 n2 g2 k2 name2 R2 K2 N2 P2) as (a2 & i2 & -> & Ka2 & Na2 & Pa2).
  pose proof (declares_kind_shown n1 k1 K1) as D1. pose proof (declares_kind_shown n2 k2 K2) as D2.
  set (show := fun x : list sym_data * sym_data => (map shown (fst x), shown (snd x))).
  assert (H : forall a inside, declares (a_kind a) = true -> exists rest, declarations [] (symbol_of description (ASym a inside)) = ([], data_of description a) :: rest).
  { intros a inside D. cbn [symbol_of declarations]. fold (data_of description a). change (sy_kind (data_of description a)) with (outline_kind (a_kind a)). fold (declares (a_kind a)). rewrite D. eexists. reflexivity. }
  rewrite <- Ka1 in D1. rewrite <- Ka2 in D2. destruct (H a1 i1 D1) as (q1 & H1). destruct (H a2 i2 D2) as (q2 & H2).
  set (f := fun l => map show (flat_map (declarations []) (map (symbol_of description) l))).
  exists (f (concat s1)), (shown (data_of description a1)), (map show q1 ++ f (concat s2)), (shown (data_of description a2)), (map show q2 ++ f (concat s3)). split; [|split; apply declaration_entry; assumption].
  assert (Fa : forall l l', f (l ++ l') = f l ++ f l') by (intros l l'; unfold f; rewrite map_app, flat_map_app, map_app; reflexivity).
  assert (F1 : f [ASym a1 i1] = ([], shown (data_of description a1)) :: map show q1) by (unfold f; cbn [map flat_map]; rewrite H1, app_nil_r; reflexivity).
  assert (F2 : f [ASym a2 i2] = ([], shown (data_of description a2)) :: map show q2) by (unfold f; cbn [map flat_map]; rewrite H2, app_nil_r; reflexivity).
  transitivity (f (st_out s)); [apply all_shown|]. rewrite Eo, concat_app, Fa. cbn [concat]. rewrite Fa, F1, concat_app, Fa. cbn [concat]. rewrite Fa, F2, <- app_comm_cons, <- app_assoc, <- app_comm_cons. reflexivity.
Qed.
Print Assumptions C95_order_partial.

(** So are two methods of a class. *)
Theorem C95_methods_order_partial : forall {TX : Text} {TR : TrimSpace} description d s ns n k name l1 kids1 l2 kids2 l3 method1 method2,
  trim_ok TR -> namespaces_outside d -> analyse d = Done tt s ->
  In (ns, n) (statements d) -> is_class_like n -> declares_kind n k -> name_of d n = Some name -> plain_name name ->
  parts n = l1 ++ Ph PhMethodDeclaration kids1 :: l2 ++ Ph PhMethodDeclaration kids2 :: l3 ->
  name_of d (Ph PhMethodDeclaration kids1) = Some method1 -> name_of d (Ph PhMethodDeclaration kids2) = Some method2 ->
  exists c e1 x1 e2 x2 e3, all_entries (file_outline description s) = e1 ++ ([c], x1) :: e2 ++ ([c], x2) :: e3 /\ entry_for d n k name c /\
    entry_for d (Ph PhMethodDeclaration kids1) AMethod method1 x1 /\ entry_for d (Ph PhMethodDeclaration kids2) AMethod method2 x2.
Proof.
  intros TX TR description d s ns n k name l1 kids1 l2 kids2 l3 method1 method2 TOK O E I C K Nm Pl Ep M1 M2.
  destruct (C71_statements_partial d s TOK O E) as (segs & Es & F). destruct (Forall2_in _ _ _ _ _ _ F I) as (b & seg & af & Ec & (_ & Rp)). cbn [fst snd] in Rp.
  assert (X : exists a inside, seg = [ASym a inside] /\ declares_kind n (a_kind a) /\ sits_at d n a /\ a_name a = TS (qualify ns name) name 0 /\
    exists ms, inside = concat ms /\ Forall2 (member_reported d n (qualify ns name)) (parts n) ms).
  { destruct n as [ty kids|t|u]; try (destruct C; fail). destruct ty; try (destruct C; fail); try discriminate Nm; destruct Rp as (a & inside & Sx & Kx & Px & Nx).
    all: exists a, inside; split; [exact Sx|split; [exact Kx|split; [exact Px|exact (Nx name Nm Pl)]]]. }
  destruct X as (a & inside & -> & Kx & Px & Nx & ms & Ei & Fm). rewrite Ep in Fm.
  apply Forall2_app_inv_l in Fm as (s1 & r1 & _ & Fm & ->). inversion Fm as [|? g1 ? r2 R1 F2]; subst. apply Forall2_app_inv_l in F2 as (s2 & r3 & _ & F3 & ->). inversion F3 as [|? g2 ? s3 R2 _]; subst.
  destruct R1 as (a1 & i1 & -> & _ & Ka1 & Pa1 & _ & _ & Na1 & _). destruct R2 as (a2 & i2 & -> & _ & Ka2 & Pa2 & _ & _ & Na2 & _). specialize (Na1 _ M1). specialize (Na2 _ M2).
  assert (Kk : a_kind a = k) by (unfold declares_kind in K, Kx; destruct (node_type n) as [ty|]; [|destruct K]; destruct ty; try (destruct K; fail); congruence).
  destruct (class_like_shown n k C K) as (Dc & Bc & Wn & _). rewrite <- Kk in Dc, Bc.
  set (show := fun x : list sym_data * sym_data => (map shown (fst x), shown (snd x))). set (c := data_of description a).
  assert (H : forall around a inside, declares (a_kind a) = true -> exists rest, declarations around (symbol_of description (ASym a inside)) = (around, data_of description a) :: rest).
  { intros around x xi D. cbn [symbol_of declarations]. fold (data_of description x). change (sy_kind (data_of description x)) with (outline_kind (a_kind x)). fold (declares (a_kind x)). rewrite D. eexists. reflexivity. }
  destruct (H [c] a1 i1 ltac:(rewrite Ka1; reflexivity)) as (q1 & H1). destruct (H [c] a2 i2 ltac:(rewrite Ka2; reflexivity)) as (q2 & H2).
  set (f := fun around l => map show (flat_map (declarations around) (map (symbol_of description) l))).
  assert (Fa : forall around l l', f around (l ++ l') = f around l ++ f around l') by (intros around l l'; unfold f; rewrite map_app, flat_map_app, map_app; reflexivity).
  assert (F1 : f [c] [ASym a1 i1] = ([shown c], shown (data_of description a1)) :: map show q1) by (unfold f; cbn [map flat_map]; rewrite H1, app_nil_r; reflexivity).
  assert (F2 : f [c] [ASym a2 i2] = ([shown c], shown (data_of description a2)) :: map show q2) by (unfold f; cbn [map flat_map]; rewrite H2, app_nil_r; reflexivity).
  assert (F0 : forall inside, f [] [ASym a inside] = ([], shown c) :: f [c] inside).
  { intros inside. unfold f. cbn [map flat_map symbol_of declarations]. fold (data_of description a). fold c. change (sy_kind c) with (outline_kind (a_kind a)). fold (declares (a_kind a)). rewrite Dc, Bc, app_nil_r. reflexivity. }
  exists (shown c), (f [] b ++ ([], shown c) :: f [c] (concat s1)), (shown (data_of description a1)), (map show q1 ++ f [c] (concat s2)), (shown (data_of description a2)), (map show q2 ++ f [c] (concat s3) ++ f [] af).
  split; [|split; [|split]].
  - transitivity (f [] (st_out s)); [apply all_shown|]. rewrite Es, Ec, Fa. rewrite Fa, F0, concat_app, Fa. cbn [concat]. rewrite Fa, F1, concat_app, Fa. cbn [concat]. rewrite Fa, F2.
    rewrite <- !app_assoc, <- !app_comm_cons. rewrite <- !app_assoc, <- !app_comm_cons. rewrite <- ?app_assoc, <- ?app_comm_cons. rewrite <- ?app_assoc. reflexivity.
  - rewrite <- (Wn ns name). apply declaration_entry; assumption.
  - destruct (data_entry description a1 ltac:(rewrite Ka1; reflexivity)) as (X & Y & Z). rewrite Ka1, Na1 in Y. rewrite Ka1 in X. split; [exact X|split; [exact Y|rewrite Z; exact Pa1]].
  - destruct (data_entry description a2 ltac:(rewrite Ka2; reflexivity)) as (X & Y & Z). rewrite Ka2, Na2 in Y. rewrite Ka2 in X. split; [exact X|split; [exact Y|rewrite Z; exact Pa2]].
Qed.
Print Assumptions C95_methods_order_partial.

(** the outline of the file of C69-C72 *)
Definition brief (p : list doc_data * doc_data) : list string * nat * string :=
  (map (fun x => string_of_list_byte (ds_name x)) (fst p), ds_kind (snd p), string_of_list_byte (ds_name (snd p))).
Example C95_hypotheses_met : exists s, @analyse ascii_text ascii_trim_space (file shop) = Done tt s /\ namespaces_outside (file shop) /\
  In (B "App", shop_class) (statements (file shop)) /\ declares_kind shop_class AClass /\ name_of (file shop) shop_class = Some (B "Cart") /\
  map brief (all_entries (file_outline (fun _ => []) s)) =
    [([], 5, "Cart"); (["Cart"], 7, "$items"); (["Cart"], 6, "add"); ([], 12, "store")]%string.
Proof.
  destruct (C69_no_crash_partial (TX := ascii_text) (file shop) ascii_trim_ok shop_well_parsed) as (s & E). exists s. split; [exact E|].
  split; [exact shop_namespaces|]. split; [vm_compute; tauto|]. split; [reflexivity|]. split; [vm_compute; reflexivity|].
  transitivity (map brief (all_entries (file_outline (fun _ => []) (match @analyse ascii_text ascii_trim_space (file shop) with Done _ t => t | _ => s end)))); [rewrite E; reflexivity|]. vm_compute. reflexivity.
Qed.
Example C95_order_hypotheses_met : exists l1 n1 l2 n2 l3, statements (file shop) = l1 ++ (B "App", n1) :: l2 ++ (B "App", n2) :: l3 /\
  declares_kind n1 AClass /\ name_of (file shop) n1 = Some (B "Cart") /\ declares_kind n2 AFunction /\ name_of (file shop) n2 = Some (B "store") /\
  plain_name (B "Cart") /\ plain_name (B "store").
Proof.
  set (l := statements (file shop)). exists (firstn 3 l), (snd (nth 3 l ([], Err None))), (firstn 1 (skipn 4 l)), (snd (nth 5 l ([], Err None))), (skipn 6 l).
  split; [vm_compute; reflexivity|]. split; [vm_compute; reflexivity|]. split; [vm_compute; reflexivity|]. split; [vm_compute; reflexivity|]. split; [vm_compute; reflexivity|].
  split; apply plain_nameb_ok; vm_compute; reflexivity.
Qed.
(** <?php class A { function f() { new class {}; } function g() { } } *)
Example C95_methods_order_hypotheses_met : let d := file nested_class in (exists s, @analyse ascii_text ascii_trim_space d = Done tt s) /\ namespaces_outside d /\
  exists n l1 kids1 l2 kids2 l3, In ([], n) (statements d) /\ is_class_like n /\ declares_kind n AClass /\ name_of d n = Some (B "A") /\ plain_name (B "A") /\
  parts n = l1 ++ Ph PhMethodDeclaration kids1 :: l2 ++ Ph PhMethodDeclaration kids2 :: l3 /\
  name_of d (Ph PhMethodDeclaration kids1) = Some (B "f") /\ name_of d (Ph PhMethodDeclaration kids2) = Some (B "g").
Proof.
  cbv zeta. split; [eexists; vm_compute; reflexivity|]. split; [apply namespaces_outsideb_ok; vm_compute; reflexivity|].
  set (n := snd (nth 2 (statements (file nested_class)) ([], Err None))). set (ps := parts n).
  exists n, (firstn 3 ps), (node_kids (nth 3 ps (Err None))), (firstn 1 (skipn 4 ps)), (node_kids (nth 5 ps (Err None))), (skipn 6 ps).
  split; [vm_compute; right; right; left; reflexivity|]. split; [exact Logic.I|]. split; [vm_compute; reflexivity|]. split; [vm_compute; reflexivity|].
  split; [apply plain_nameb_ok; vm_compute; reflexivity|]. split; [vm_compute; reflexivity|split; vm_compute; reflexivity].
Qed.
(** Not every declaration is shown once: this file declares two classes, and
    three are shown. *)
Theorem C95_once_refuted : exists d s, text_of d = B "<?php class A { function __construct() { $this->a = $this->b = new class {}; } }" /\
  @analyse ascii_text ascii_trim_space d = Done tt s /\
  length (List.filter (fun p => Nat.eqb (ds_kind (snd p)) 5) (all_entries (file_outline (fun _ => []) s))) = 3.
Proof. eexists (file chained), _. split; [vm_compute; reflexivity|split; vm_compute; reflexivity]. Qed.
Print Assumptions C95_once_refuted.
