(** Claims about the analysis of syntax trees. *)
From Coq Require Import String.
From Coq Require Import List Bool ZArith Lia Sorting.Sorted.
From Coq.Strings Require Import Byte.
From Verif Require Import Base.Bytes Base.Protocol Symbols.Symbols Symbols.KeysModel Text.TextModel
  Types.TypesModel Rpc.StreamModel Rpc.StreamSpec Store.Examples
  Analyse.SyntaxModel Analyse.AnalyseModel Analyse.AnalyseSpec Analyse.SpecProofs Analyse.AnalyseProofs Analyse.DeclareSpec Analyse.DeclareProofs Analyse.Examples.
Import ListNotations.
Open Scope list_scope.
Open Scope nat_scope.

(** ** C69 the analysis ends without a crash *)
(** [OutOfFuel] stands for a recursion deeper than the tree. *)
Theorem C69_analysis_ends : forall {TX : Text} {TR : TrimSpace} d fuel, trim_ok TR -> height (d_root d) <= fuel -> Load d fuel <> OutOfFuel.
Proof.
  intros TX TR d fuel TOK H E. pose proof (sp_analyse d TOK fuel H) as X. rewrite E in X. exact X.
Qed.
Print Assumptions C69_analysis_ends.
Theorem C69_no_crash_partial : forall {TX : Text} {TR : TrimSpace} d, trim_ok TR -> well_parsed TR d -> exists s, analyse d = Done tt s.
Proof.
  intros TX TR d TOK W. pose proof (sp_analyse d TOK (height (d_root d)) (le_n _)) as X. unfold analyse.
  destruct (Load d (height (d_root d))) as [[] s| |]; [exists s; reflexivity|destruct (X W)|destruct X].
Qed.
Print Assumptions C69_no_crash_partial.
Example C69_hypotheses_met : well_parsed ascii_trim_space (file shop) /\ length (flat_map summary (found (@analyse ascii_text _ (file shop)))) = 11.
Proof. split; [exact shop_well_parsed|]. vm_compute. reflexivity. Qed.
(** an element of a group use that does not end with a phrase crashes the server *)
Theorem C69_no_crash_refuted : exists d,
  StronglySorted (fun a b => t_offset a <= t_offset b) (tokens (d_root d)) /\
  Forall (fun t => t_end t <= length (text_of d)) (tokens (d_root d)) /\
  text_of d = B "<?php use A\{function};" /\ @analyse ascii_text ascii_trim_space d = Panic.
Proof.
  exists (file group_use). split; [apply sortedb_ok; vm_compute; reflexivity|split; [|split; [vm_compute; reflexivity|vm_compute; reflexivity]]].
  apply Forall_forall. intros t I. apply Nat.leb_le. revert t I. apply forallb_forall. vm_compute. reflexivity.
Qed.
Print Assumptions C69_no_crash_refuted.

(** ** C70 every symbol is written in the file *)
Theorem C70_symbols_come_from_the_file : forall {TX : Text} {TR : TrimSpace} d s, trim_ok TR -> analyse d = Done tt s ->
  Forall (comes_from d (d_root d)) (st_out s).
Proof.
  intros TX TR d s TOK E. pose proof (sp_analyse d TOK (height (d_root d)) (le_n _)) as X. unfold analyse in E. rewrite E in X.
  destruct X as ((new & O & F) & _). cbn [initial st_out app] in O. rewrite O. exact F.
Qed.
Print Assumptions C70_symbols_come_from_the_file.
Example C70_hypotheses_met : exists s, @analyse ascii_text ascii_trim_space (file shop) = Done tt s /\
  map (fun p => (fst (fst p), snd (fst p))) (flat_map summary (st_out s)) =
    [(AClass, "\App\Cart"); (AClassAccess, "Basket"); (AProperty, "$items"); (AMethod, "add"); (AVariable, "$this"); (APropertyAccess, "items");
     (AFunctionCall, "store"); (AArgumentList, ""); (AVariable, "$item"); (AFunction, "\App\store"); (AVariable, "$x")]%string.
Proof.
  destruct (C69_no_crash_partial (TX := ascii_text) (file shop) ascii_trim_ok shop_well_parsed) as (s & E). exists s. split; [exact E|].
  transitivity (map (fun p => (fst (fst p), snd (fst p))) (flat_map summary (found (@analyse ascii_text _ (file shop))))); [rewrite E; reflexivity|]. vm_compute. reflexivity.
Qed.

(** ** C71 every declaration is found, once, under its full name *)
(** Each statement has its part of the symbols, in the order of the file. *)
Theorem C71_statements_partial : forall {TX : Text} {TR : TrimSpace} d s, trim_ok TR -> namespaces_outside d -> analyse d = Done tt s ->
  exists segs, st_out s = concat segs /\ Forall2 (fun p seg => reported d (fst p) (snd p) seg) (statements d) segs.
Proof. exact @statements_reported. Qed.
Print Assumptions C71_statements_partial.
Lemma Forall2_in : forall A X (R : A -> list X -> Prop) l segs x, Forall2 R l segs -> In x l ->
  exists before seg after, concat segs = before ++ seg ++ after /\ R x seg.
Proof.
  intros A X R l segs x F. induction F as [|y seg l segs H F IH]; intros I; [destruct I|]. cbn [concat]. destruct I as [->|I].
  - exists [], seg, (concat segs). auto.
  - destruct (IH I) as (b & sg & a & E & Rx). exists (seg ++ b), sg, a. rewrite E, app_assoc. auto.
Qed.
(** a class, an interface, a trait, a function or a constant *)
Theorem C71_declaration_found_partial : forall {TX : Text} {TR : TrimSpace} d s ns n k name, trim_ok TR -> namespaces_outside d -> analyse d = Done tt s ->
  In (ns, n) (statements d) -> declares_kind n k -> name_of d n = Some name -> plain_name name ->
  exists before a inside after, st_out s = before ++ ASym a inside :: after /\
    a_kind a = k /\ ts_fqn (a_name a) = qualify ns name /\ ts_original (a_name a) = name /\ sits_at d n a.
Proof.
  intros TX TR d s ns n k name TOK O E I K Nm Pl. destruct (statements_reported d s TOK O E) as (segs & Es & F).
  destruct (Forall2_in _ _ _ _ _ _ F I) as (b & seg & a & Ec & (_ & Rp)). cbn [fst snd] in Rp.
  assert (X : exists x inside, seg = [ASym x inside] /\ declares_kind n (a_kind x) /\ sits_at d n x /\ a_name x = TS (qualify ns name) name 0).
  { destruct n as [ty kids|t|u]; try (destruct K; fail). destruct ty; try (destruct K; fail); destruct Rp as (x & inside & Sx & Kx & Px & Nx).
    all: exists x, inside; split; [exact Sx|split; [exact Kx|split; [exact Px|]]]; specialize (Nx name Nm Pl); try exact Nx; exact (proj1 Nx). }
  destruct X as (x & inside & Sx & Kx & Px & Nx). exists b, x, inside, a. rewrite Es, Ec, Sx, Nx. split; [reflexivity|split; [|split; [reflexivity|split; [reflexivity|exact Px]]]].
  unfold declares_kind in K, Kx. destruct (node_type n) as [ty|]; [|destruct K]. destruct ty; try (destruct K; fail); congruence.
Qed.
Print Assumptions C71_declaration_found_partial.
(** a call of define *)
Theorem C71_define_found_partial : forall {TX : Text} {TR : TrimSpace} d s ns kids name, trim_ok TR -> namespaces_outside d -> analyse d = Done tt s ->
  In (ns, Ph PhFunctionCallExpression kids) (statements d) -> calls_define d kids -> quoted d (first_argument kids) name -> plain_name name ->
  exists before a inside after, st_out s = before ++ ASym a inside :: after /\
    a_kind a = ADefine /\ ts_fqn (a_name a) = qualify ns name /\ ts_original (a_name a) = name /\ sits_at d (Ph PhFunctionCallExpression kids) a.
Proof.
  intros TX TR d s ns kids name TOK O E I K Nm Pl. destruct (statements_reported d s TOK O E) as (segs & Es & F).
  destruct (Forall2_in _ _ _ _ _ _ F I) as (b & seg & a & Ec & (_ & Rp)). cbn [fst snd] in Rp. destruct (Rp K) as (x & inside & Sx & Kx & Px & Nx).
  exists b, x, inside, a. rewrite Es, Ec, Sx, (Nx name Nm Pl). split; [reflexivity|split; [exact Kx|split; [reflexivity|split; [reflexivity|exact Px]]]].
Qed.
Print Assumptions C71_define_found_partial.
Definition texts (d : document) (l : list (gostr * node)) : list (string * option string) :=
  map (fun p => (string_of_list_byte (fst p), option_map string_of_list_byte (name_of d (snd p)))) l.
Example C71_hypotheses_met : namespaces_outside (file shop) /\ (exists s, @analyse ascii_text ascii_trim_space (file shop) = Done tt s) /\
  List.filter (fun p => match snd p with Some _ => true | None => false end) (texts (file shop) (statements (file shop))) = [("App", Some "Cart"); ("App", Some "store")]%string /\
  plain_name (B "Cart") /\ plain_name (B "store").
Proof.
  split; [exact shop_namespaces|split; [exact (C69_no_crash_partial _ ascii_trim_ok shop_well_parsed)|split; [vm_compute; reflexivity|]]].
  split; apply plain_nameb_ok; vm_compute; reflexivity.
Qed.
Example C71_define_hypotheses_met : let d := file define_in_namespace in namespaces_outside d /\ (exists s, @analyse ascii_text ascii_trim_space d = Done tt s) /\
  exists kids, In (B "N", Ph PhFunctionCallExpression kids) (statements d) /\ calls_define (TX := ascii_text) d kids /\ quoted d (first_argument kids) (B "FOO").
Proof.
  cbv zeta. split; [apply namespaces_outsideb_ok; vm_compute; reflexivity|]. split.
  { apply (C69_no_crash_partial _ ascii_trim_ok). apply well_parsedb_ok. vm_compute. reflexivity. }
  eexists. split; [vm_compute; right; right; right; left; reflexivity|]. split.
  - eexists _, _, (B "define"). split; [left; reflexivity|split; [left; reflexivity|split; [vm_compute; reflexivity|left; vm_compute; reflexivity]]].
  - eexists _, _, _, _. split; vm_compute; reflexivity.
Qed.
(** a class in the block behind "finally" is not found *)
Theorem C71_finally_refuted : exists d n, text_of d = B "<?php try { } finally { class A {  } }" /\
  below n (d_root d) /\ node_type n = Some PhClassDeclaration /\ name_of d n = Some (B "A") /\
  exists s, @analyse ascii_text ascii_trim_space d = Done tt s /\ st_out s = [].
Proof.
  exists (file in_finally), (Ph PhClassDeclaration (node_kids (match find (fun n => match n with Ph PhClassDeclaration _ => true | _ => false end) (nodes (d_root (file in_finally))) with Some n => n | None => Err None end))).
  split; [vm_compute; reflexivity|]. split; [|split; [reflexivity|split; [vm_compute; reflexivity|]]].
  - apply nodes_below. vm_compute. repeat (first [left; reflexivity|right]).
  - eexists. split; vm_compute; reflexivity.
Qed.
Print Assumptions C71_finally_refuted.
(** a class with the name of a type is found under another name *)
Theorem C71_type_name_refuted : exists d n s, text_of d = B "<?php class integer {  }" /\
  In ([], n) (statements d) /\ node_type n = Some PhClassDeclaration /\ name_of d n = Some (B "integer") /\
  @analyse ascii_text ascii_trim_space d = Done tt s /\ flat_map summary (st_out s) = [(AClass, "int", "")]%string.
Proof.
  eexists (file class_integer), _, _. split; [vm_compute; reflexivity|]. split; [vm_compute; right; right; left; reflexivity|].
  split; [vm_compute; reflexivity|]. split; [vm_compute; reflexivity|split; vm_compute; reflexivity].
Qed.
Print Assumptions C71_type_name_refuted.
(** PHP's define declares a global constant; it is found in the namespace of the
    call *)
Theorem C71_define_refuted : exists d s, text_of d = B "<?php namespace N; define('FOO',1);" /\
  @analyse ascii_text ascii_trim_space d = Done tt s /\ map (fun p => fst p) (flat_map summary (st_out s)) = [(ADefine, "\N\FOO"); (AArgumentList, "")]%string.
Proof. eexists (file define_in_namespace), _. split; [vm_compute; reflexivity|split; vm_compute; reflexivity]. Qed.
Print Assumptions C71_define_refuted.
(** in a constructor, an anonymous class behind two assignments is found twice *)
Definition classes_at (s : asym) : list range := match s with ASym a _ => match a_kind a with AClass => [a_range a] | _ => [] end end.
Fixpoint all_symbols (s : asym) : list asym := match s with ASym _ kids => s :: flat_map all_symbols kids end.
Theorem C71_once_refuted : exists d s r, text_of d = B "<?php class A { function __construct() { $this->a = $this->b = new class {}; } }" /\
  @analyse ascii_text ascii_trim_space d = Done tt s /\
  flat_map classes_at (flat_map all_symbols (st_out s)) = [Rng (Pos 0 6) (Pos 0 80); r; r].
Proof. eexists (file chained), _, _. split; [vm_compute; reflexivity|split; vm_compute; reflexivity]. Qed.
Print Assumptions C71_once_refuted.

(** ** C72 members belong to the class they are written in *)
Definition reported_members (d : document) (s : state) (ns : gostr) (n : node) (name : gostr) (m : node) (syms : list asym) : Prop :=
  exists before a inside after b e, st_out s = before ++ ASym a inside :: after /\ declares_kind n (a_kind a) /\ sits_at d n a /\
    ts_fqn (a_name a) = qualify ns name /\ ts_original (a_name a) = name /\ inside = b ++ syms ++ e.
Lemma members_of : forall {TX : Text} {TR : TrimSpace} d s ns n name m, trim_ok TR -> namespaces_outside d -> analyse d = Done tt s ->
  In (ns, n) (statements d) -> is_class_like n -> name_of d n = Some name -> plain_name name -> In m (parts n) ->
  exists syms, reported_members d s ns n name m syms /\ member_reported d n (qualify ns name) m syms.
Proof.
  intros TX TR d s ns n name m TOK O E I K Nm Pl Mm. destruct (statements_reported d s TOK O E) as (segs & Es & F).
  destruct (Forall2_in _ _ _ _ _ _ F I) as (b & seg & a & Ec & (_ & Rp)). cbn [fst snd] in Rp.
  assert (X : exists x inside, seg = [ASym x inside] /\ declares_kind n (a_kind x) /\ sits_at d n x /\ a_name x = TS (qualify ns name) name 0 /\
    exists ms, inside = concat ms /\ Forall2 (member_reported d n (qualify ns name)) (parts n) ms).
  { destruct n as [ty kids|t|u]; try (destruct K; fail). destruct ty; try (destruct K; fail); try discriminate Nm; destruct Rp as (x & inside & Sx & Kx & Px & Nx).
    all: exists x, inside; split; [exact Sx|split; [exact Kx|split; [exact Px|exact (Nx name Nm Pl)]]]. }
  destruct X as (x & inside & Sx & Kx & Px & Nx & ms & Ei & Fm). destruct (Forall2_in _ _ _ _ _ _ Fm Mm) as (b2 & syms & a2 & E2 & Rm).
  exists syms. split; [|exact Rm]. exists b, x, inside, a, b2, a2. rewrite Es, Ec, Sx, Ei, E2, Nx. auto 7.
Qed.
(** methods *)
Theorem C72_methods_partial : forall {TX : Text} {TR : TrimSpace} d s ns n name kids, trim_ok TR -> namespaces_outside d -> analyse d = Done tt s ->
  In (ns, n) (statements d) -> is_class_like n -> name_of d n = Some name -> plain_name name -> simple_class n ->
  let m := Ph PhMethodDeclaration kids in let mods := modifiers (header_kids method_header_type kids) in
  In m (parts n) -> exists a inside, reported_members d s ns n name m [ASym a inside] /\
    a_kind a = AMethod /\ sits_at d m a /\ ts_fqn (a_scope a) = qualify ns name /\ a_vis a = visibility_of mods /\ a_static a = static_of mods /\
    (forall method, name_of d m = Some method -> ts_fqn (a_name a) = method /\ ts_original (a_name a) = method).
Proof.
  intros TX TR d s ns n name kids TOK O E I K Nm Pl Sc m mods Mm. destruct (members_of d s ns n name m TOK O E I K Nm Pl Mm) as (syms & Rm & a & inside & -> & _ & Ka & Pa & Va & Sa & Na & Ca).
  exists a, inside. split; [exact Rm|split; [exact Ka|split; [exact Pa|split; [exact (Ca Sc)|split; [exact Va|split; [exact Sa|]]]]]]. intros method Em. rewrite (Na method Em). split; reflexivity.
Qed.
Print Assumptions C72_methods_partial.
(** properties; those of an interface belong to nothing *)
Theorem C72_properties_partial : forall {TX : Text} {TR : TrimSpace} d s ns n name kids mods e, trim_ok TR -> namespaces_outside d -> analyse d = Done tt s ->
  In (ns, n) (statements d) -> is_class_like n -> node_type n <> Some PhInterfaceDeclaration -> name_of d n = Some name -> plain_name name -> simple_class n ->
  In (Ph PhPropertyDeclaration kids) (parts n) -> In (mods, e) (properties kids) ->
  exists syms before a after, reported_members d s ns n name (Ph PhPropertyDeclaration kids) syms /\ syms = before ++ ASym a [] :: after /\
    a_kind a = AProperty /\ sits_at d e a /\ ts_fqn (a_scope a) = qualify ns name /\ a_vis a = visibility_of mods /\ a_static a = static_of mods /\
    (forall property, name_of d e = Some property -> ts_fqn (a_name a) = property /\ ts_original (a_name a) = property).
Proof.
  intros TX TR d s ns n name kids mods e TOK O E I K Ni Nm Pl Sc Mm Me. destruct (members_of d s ns n name _ TOK O E I K Nm Pl Mm) as (syms & Rm & segs & Es & F).
  destruct (Forall2_in _ _ _ _ _ _ F Me) as (b & seg & af & Ec & (value & a & -> & _ & Ka & Pa & Va & Sa & Na & Ca)). cbn [fst snd] in *.
  exists syms, (b ++ value), a, af. split; [exact Rm|]. split; [rewrite Es, Ec, <- !app_assoc; reflexivity|].
  split; [exact Ka|split; [exact Pa|split; [exact (Ca Ni Sc)|split; [exact Va|split; [exact Sa|]]]]]. intros property Em. rewrite (Na property Em). split; reflexivity.
Qed.
Print Assumptions C72_properties_partial.
(** constants *)
Theorem C72_constants_partial : forall {TX : Text} {TR : TrimSpace} d s ns n name kids mods e, trim_ok TR -> namespaces_outside d -> analyse d = Done tt s ->
  In (ns, n) (statements d) -> is_class_like n -> name_of d n = Some name -> plain_name name -> simple_class n ->
  In (Ph PhClassConstDeclaration kids) (parts n) -> In (mods, e) (class_consts kids) ->
  exists syms before a after, reported_members d s ns n name (Ph PhClassConstDeclaration kids) syms /\ syms = before ++ ASym a [] :: after /\
    a_kind a = AClassConst /\ sits_at d e a /\ ts_fqn (a_scope a) = qualify ns name /\ a_vis a = visibility_of mods /\ a_static a = true /\
    (forall constant, name_of d e = Some constant -> ts_fqn (a_name a) = constant /\ ts_original (a_name a) = constant).
Proof.
  intros TX TR d s ns n name kids mods e TOK O E I K Nm Pl Sc Mm Me. destruct (members_of d s ns n name _ TOK O E I K Nm Pl Mm) as (syms & Rm & segs & Es & F).
  destruct (Forall2_in _ _ _ _ _ _ F Me) as (b & seg & af & Ec & (value & a & -> & _ & Ka & Pa & Va & Sa & Na & Ca)). cbn [fst snd] in *.
  exists syms, (b ++ value), a, af. split; [exact Rm|]. split; [rewrite Es, Ec, <- !app_assoc; reflexivity|].
  split; [exact Ka|split; [exact Pa|split; [exact (Ca Sc)|split; [exact Va|split; [exact Sa|]]]]]. intros constant Em. rewrite (Na constant Em). split; reflexivity.
Qed.
Print Assumptions C72_constants_partial.
Definition shop_class : node := match find (fun p => class_likeb (snd p)) (statements (file shop)) with Some p => snd p | None => Err None end.
Example C72_hypotheses_met : In (B "App", shop_class) (statements (file shop)) /\ is_class_like shop_class /\ simple_class shop_class /\ name_of (file shop) shop_class = Some (B "Cart") /\
  (exists kids, In (Ph PhMethodDeclaration kids) (parts shop_class) /\ name_of (file shop) (Ph PhMethodDeclaration kids) = Some (B "add")) /\
  exists kids mods e, In (Ph PhPropertyDeclaration kids) (parts shop_class) /\ In (mods, e) (properties kids) /\ name_of (file shop) e = Some (B "$items") /\
    visibility_of mods = Private /\ static_of mods = true.
Proof.
  split; [vm_compute; tauto|]. split; [exact Logic.I|]. split; [apply simple_classb_ok; vm_compute; reflexivity|]. split; [vm_compute; reflexivity|]. split.
  - eexists. split; [vm_compute; repeat (first [left; reflexivity|right])|vm_compute; reflexivity].
  - eexists _, _, _. split; [vm_compute; repeat (first [left; reflexivity|right])|]. split; [vm_compute; left; reflexivity|]. split; [vm_compute; reflexivity|split; vm_compute; reflexivity].
Qed.
(** behind an anonymous class, methods belong to that *)
Theorem C72_scope_refuted : exists d s, text_of d = B "<?php class A { function f() { new class {}; } function g() {  } }" /\
  @analyse ascii_text ascii_trim_space d = Done tt s /\
  flat_map summary (st_out s) =
    [(AClass, "\A", ""); (AMethod, "f", "\anonClass#0123456789ab#0:35"); (AClassTypeDesignator, "anonClass#0123456789ab#0:35", "");
     (AClass, "\anonClass#0123456789ab#0:35", ""); (AMethod, "g", "\anonClass#0123456789ab#0:35")]%string.
Proof. eexists (file nested_class), _. split; [vm_compute; reflexivity|split; vm_compute; reflexivity]. Qed.
Print Assumptions C72_scope_refuted.
