(** Syntax trees of small files, for the examples and refutations. *)
From Coq Require Import String.
From Coq Require Import List Bool ZArith Lia Sorting.Sorted.
From Coq.Strings Require Import Byte.
From Verif Require Import Base.Bytes Base.BytesProofs Base.Protocol Symbols.Symbols Symbols.KeysModel Text.TextModel
  Types.TypesModel Rpc.StreamModel Rpc.StreamSpec Analyse.SyntaxModel Analyse.AnalyseModel Analyse.AnalyseSpec Analyse.DeclareSpec.
Import ListNotations.
Open Scope list_scope.
Open Scope nat_scope.

(** a tree whose tokens carry their text instead of their place *)
Inductive src := P (ty : phrase_type) (kids : list src) | T (ty : token_type) (text : string).
Fixpoint source (s : src) : gostr := match s with P _ kids => flat_map source kids | T _ text => B text end.
Fixpoint tree (o : nat) (s : src) : node :=
  match s with
  | P ty kids => Ph ty ((fix all (o : nat) (l : list src) : list node :=
      match l with [] => [] | k :: l => tree o k :: all (o + length (source k)) l end) o kids)
  | T ty text => Tk (Tok ty o (length (B text)))
  end.
Definition file (s : src) : document := Doc (SetText (source s)) (tree 0 s) (B "0123456789ab").
Definition sp : src := T TkWhitespace " ".
Definition nl : src := T TkWhitespace "
".
Definition word (s : string) : src := T (TkOther 0) s.
Definition name (s : string) : src := P PhQualifiedName [P PhNamespaceName [T TkName s]].
Definition var (s : string) : src := P PhSimpleVariable [T TkVariableName s].

(** the oracles, restricted to ASCII *)
#[global] Instance ascii_trim_space : TrimSpace := { trim_space := ascii_trim }.
Lemma ascii_trim_ok : trim_ok ascii_trim_space.
Proof. intros s _. reflexivity. Qed.

(** ** Deciding that a tree is well parsed *)
Definition is_some {A} (o : option A) : bool := match o with Some _ => true | None => false end.
Definition name_textb (s : gostr) : bool :=
  is_some (NewTypeString s) && forallb (fun part => is_some (NewTypeString (trim_space part))) (split_byte s x7c).
Definition node_safeb (d : document) (n : node) : bool :=
  match GetNodeText d n with Some s => name_textb s | None => true end &&
  match n with
  | Ph (PhFunctionDeclarationHeader | PhMethodDeclarationHeader) _ => is_some (LastToken n)
  | Ph PhNamespaceUseGroupClause kids => match nth_error (rev kids) 0 with Some (Ph _ _) | None => true | _ => false end
  | Tk (Tok TkStringLiteral o l) => (2 <=? l) && match text_slice d (o + 1) (o + l - 1) with Some s => is_some (NewTypeString s) | None => true end
  | _ => true
  end.
Fixpoint nodes (n : node) : list node := n :: match n with Ph _ kids => flat_map nodes kids | _ => [] end.
Fixpoint sortedb (l : list nat) : bool :=
  match l with a :: l => forallb (fun b => a <=? b) l && sortedb l | [] => true end.
Definition well_parsedb (d : document) : bool :=
  sortedb (map t_offset (tokens (d_root d))) &&
  forallb (fun t => t_end t <=? length (text_of d)) (tokens (d_root d)) &&
  forallb (node_safeb d) (nodes (d_root d)).

Lemma below_nodes : forall m n, below m n -> In m (nodes n).
Proof.
  intros m n Bl. induction Bl as [n|m k n I Bl IH]; [destruct n; left; reflexivity|].
  destruct n as [ty kids|t|u]; cbn [node_kids] in I; try (destruct I; fail). right. apply in_flat_map. exists k. auto.
Qed.
Lemma is_some_true : forall A (o : option A), is_some o = true -> o <> None.
Proof. intros A [a|] H; [discriminate|discriminate H]. Qed.
Lemma node_safeb_ok : forall d n, node_safeb d n = true -> node_safe ascii_trim_space d n.
Proof.
  intros d n H. apply andb_true_iff in H as (H1 & H2). split.
  - intros s E. rewrite E in H1. apply andb_true_iff in H1 as (A & F). split; [exact (is_some_true _ _ A)|].
    rewrite Forall_forall. rewrite forallb_forall in F. intros x I. exact (is_some_true _ _ (F x I)).
  - destruct n as [ty kids|[ty o l]|u]; [|destruct ty; try exact Logic.I|exact Logic.I].
    + destruct ty; try exact Logic.I; try exact (is_some_true _ _ H2).
      intros k E. rewrite E in H2. destruct k; [exact Logic.I|discriminate H2|discriminate H2].
    + apply andb_true_iff in H2 as (L & S). apply Nat.leb_le in L. split; [exact L|].
      intros s E. rewrite E in S. exact (is_some_true _ _ S).
Qed.
Lemma sortedb_ok : forall l, sortedb (map t_offset l) = true -> StronglySorted (fun a b => t_offset a <= t_offset b) l.
Proof.
  induction l as [|a l IH]; intros H; [constructor|]. cbn in H. apply andb_true_iff in H as (F & S).
  constructor; [exact (IH S)|]. rewrite forallb_forall in F. rewrite Forall_forall. intros x I.
  apply Nat.leb_le. apply F. apply in_map. exact I.
Qed.
Lemma well_parsedb_ok : forall d, well_parsedb d = true -> well_parsed ascii_trim_space d.
Proof.
  intros d H. apply andb_true_iff in H as (H & S). apply andb_true_iff in H as (O & E). split; [exact (sortedb_ok _ O)|]. split.
  - rewrite forallb_forall in E. rewrite Forall_forall. intros t I. apply Nat.leb_le. exact (E t I).
  - intros n Bl. apply node_safeb_ok. rewrite forallb_forall in S. exact (S n (below_nodes _ _ Bl)).
Qed.

(** what the analysis found *)
Definition found {A} (r : result A) : list asym := match r with Done _ s => st_out s | _ => [] end.
Fixpoint summary (s : asym) : list (akind * string * string) :=
  match s with ASym a kids => (a_kind a, string_of_list_byte (ts_fqn (a_name a)), string_of_list_byte (ts_fqn (a_scope a))) :: flat_map summary kids end.

(** <?php
    namespace App;
    class Cart extends Basket {
      private static $items;
      public function add($item) { $this->items = store($item); }
    }
    function store($x) { return $x; } *)
Definition shop : src := P PhStatementList
  [T (TkOther 1) "<?php"; nl;
   P PhNamespaceDefinition [word "namespace"; sp; P PhNamespaceName [T TkName "App"]; word ";"]; nl;
   P PhClassDeclaration
     [P PhClassDeclarationHeader [word "class"; sp; T TkName "Cart"; sp; P PhClassBaseClause [word "extends"; sp; name "Basket"]]; sp;
      P PhClassDeclarationBody [word "{"; nl; P PhClassMemberDeclarationList
        [P PhPropertyDeclaration [P PhMemberModifierList [T TkPrivate "private"; sp; T TkStatic "static"]; sp;
           P PhPropertyElementList [P PhPropertyElement [T TkVariableName "$items"]]; word ";"]; nl;
         P PhMethodDeclaration
           [P PhMethodDeclarationHeader [P PhMemberModifierList [T TkPublic "public"]; sp; T TkFunction "function"; sp; P PhIdentifier [T TkName "add"]; word "(";
              P PhParameterDeclarationList [P PhParameterDeclaration [T TkVariableName "$item"]]; word ")"]; sp;
            P PhMethodDeclarationBody [word "{"; sp; P PhStatementList [P PhExpressionStatement [P PhSimpleAssignmentExpression
              [P PhPropertyAccessExpression [var "$this"; T TkArrow "->"; P PhMemberName [T TkName "items"]]; sp; T TkEquals "="; sp;
               P PhFunctionCallExpression [name "store"; P PhArgumentExpressionList [T TkOpenParenthesis "("; var "$item"; T TkCloseParenthesis ")"]]];
              word ";"]]; sp; word "}"]]]; nl; word "}"]]; nl;
   P PhFunctionDeclaration
     [P PhFunctionDeclarationHeader [T TkFunction "function"; sp; T TkName "store"; word "("; P PhParameterDeclarationList [P PhParameterDeclaration [T TkVariableName "$x"]]; word ")"]; sp;
      P PhFunctionDeclarationBody [P PhCompoundStatement [word "{"; sp; P PhStatementList [P PhReturnStatement [word "return"; sp; var "$x"; word ";"]]; sp; word "}"]]]].
Lemma shop_well_parsed : well_parsed ascii_trim_space (file shop).
Proof. apply well_parsedb_ok. vm_compute. reflexivity. Qed.

(** ** Deciding the conditions on namespaces *)
Definition namespaceb (n : node) : bool := match n with Ph PhNamespaceDefinition _ => true | _ => false end.
Fixpoint names_firstb (seen : bool) (kids : list node) : bool :=
  match kids with
  | [] => true
  | Ph PhNamespaceName _ :: kids => negb seen && names_firstb seen kids
  | Ph PhStatementList _ :: kids => names_firstb true kids
  | _ :: kids => names_firstb seen kids
  end.
Definition namespaces_outsideb (d : document) : bool :=
  forallb (fun p => forallb (fun m => negb (namespaceb m)) (nodes (snd p))) (statements d) &&
  forallb (fun n => negb (namespaceb n) || names_firstb false (node_kids n)) (nodes (d_root d)).
Lemma namespaceb_ok : forall n, is_namespace_node n -> namespaceb n = true.
Proof. intros [ty kids|t|u] H; try discriminate H. injection H as ->. reflexivity. Qed.
Lemma names_firstb_true : forall kids, names_firstb true kids = true -> forall k, In k kids -> node_type k <> Some PhNamespaceName.
Proof.
  induction kids as [|c kids IH]; intros H k K; [destruct K|]. destruct K as [->|K].
  - destruct k as [ty ks|t|u]; try discriminate. destruct ty; try discriminate; discriminate H.
  - apply IH; [|exact K]. destruct c as [ty ks|t|u]; [|exact H|exact H]. destruct ty; try exact H. discriminate H.
Qed.
Lemma names_firstb_ok : forall before l after, names_firstb false (before ++ Ph PhStatementList l :: after) = true ->
  forall k, In k after -> node_type k <> Some PhNamespaceName.
Proof.
  intros before l after H. apply names_firstb_true. induction before as [|c before IH]; [exact H|]. cbn [app] in H.
  destruct c as [ty ks|t|u]; [|exact (IH H)|exact (IH H)]. destruct ty; try exact (IH H). cbn [names_firstb] in H. clear IH.
  revert H. generalize before. induction before0 as [|c b IH]; intros H; [exact H|]. cbn [app] in H.
  destruct c as [ty qs|t|u]; [|exact (IH H)|exact (IH H)]. destruct ty; try exact (IH H). discriminate H.
Qed.
Lemma namespaces_outsideb_ok : forall d, namespaces_outsideb d = true -> namespaces_outside d.
Proof.
  intros d H. apply andb_true_iff in H as (H1 & H2). rewrite forallb_forall in H1, H2. split.
  - intros ns n m I Bl N. specialize (H1 _ I). rewrite forallb_forall in H1. specialize (H1 m (below_nodes _ _ Bl)). rewrite (namespaceb_ok m N) in H1. discriminate H1.
  - intros n before l after k Bl N E. specialize (H2 n (below_nodes _ _ Bl)). rewrite (namespaceb_ok n N) in H2. cbn [negb orb] in H2. rewrite E in H2.
    exact (names_firstb_ok before l after H2 k).
Qed.
Definition class_likeb (n : node) : bool :=
  match n with Ph (PhClassDeclaration | PhInterfaceDeclaration | PhTraitDeclaration | PhAnonymousClassDeclaration) _ => true | _ => false end.
Fixpoint headers_firstb (seen : bool) (kids : list node) : bool :=
  match kids with
  | [] => true
  | Ph (PhClassDeclarationHeader | PhInterfaceDeclarationHeader | PhTraitDeclarationHeader) _ :: kids => negb seen && headers_firstb seen kids
  | Ph (PhClassDeclarationBody | PhInterfaceDeclarationBody | PhTraitDeclarationBody) _ :: kids => headers_firstb true kids
  | _ :: kids => headers_firstb seen kids
  end.
Definition simple_classb (n : node) : bool :=
  forallb (fun k => forallb (fun m => negb (class_likeb m)) (nodes k)) (node_kids n) && headers_firstb false (node_kids n).
Lemma headers_seen : forall kids, headers_firstb true kids = true -> forall k, In k kids ->
  match node_type k with Some (PhClassDeclarationHeader | PhInterfaceDeclarationHeader | PhTraitDeclarationHeader) => False | _ => True end.
Proof.
  induction kids as [|c kids IH]; intros H k K; [destruct K|]. destruct K as [->|K].
  - destruct k as [ty ks|t|u]; try exact Logic.I. destruct ty; try exact Logic.I; discriminate H.
  - apply IH; [|exact K]. destruct c as [ty ks|t|u]; [|exact H|exact H]. destruct ty; try exact H; discriminate H.
Qed.
Lemma headers_split : forall before seen rest, headers_firstb seen (before ++ rest) = true -> exists seen', headers_firstb seen' rest = true.
Proof.
  induction before as [|c before IH]; intros seen rest H; [exists seen; exact H|]. cbn [app headers_firstb] in H.
  destruct c as [ty ks|t|u]; [|exact (IH _ _ H)|exact (IH _ _ H)]. destruct ty; try exact (IH _ _ H); apply andb_true_iff in H as (_ & H); exact (IH _ _ H).
Qed.
Lemma simple_classb_ok : forall n, simple_classb n = true -> simple_class n.
Proof.
  intros n H. apply andb_true_iff in H as (H1 & H2). split.
  - intros k m K Bl C. rewrite forallb_forall in H1. specialize (H1 k K). rewrite forallb_forall in H1. specialize (H1 m (below_nodes _ _ Bl)).
    unfold is_class_like in C. destruct m as [ty ks|t|u]; try exact C. destruct ty; try exact C; discriminate H1.
  - intros before b after k E K Tb. rewrite E in H2. destruct (headers_split _ _ _ H2) as (seen & H3). apply (headers_seen after); [|exact K].
    destruct b as [ty ks|t|u]; try (destruct Tb; fail). destruct ty; try (destruct Tb; fail); exact H3.
Qed.
Lemma shop_namespaces : namespaces_outside (file shop).
Proof. apply namespaces_outsideb_ok. vm_compute. reflexivity. Qed.

Lemma nodes_below : forall n m, In m (nodes n) -> below m n.
Proof.
  fix IH 1. intros [ty kids|t|u] m I; cbn [nodes] in I; destruct I as [<-|I]; try apply below_here; try (destruct I; fail).
  assert (X : exists k, In k kids /\ below m k).
  { revert I. generalize kids. clear kids. fix IHl 1. intros [|k kids] I; [destruct I|]. cbn [flat_map] in I. apply in_app_or in I as [I|I].
    - exists k. split; [left; reflexivity|exact (IH k m I)].
    - destruct (IHl kids I) as (k' & K & Bl). exists k'. split; [right; exact K|exact Bl]. }
  destruct X as (k & K & Bl). exact (below_kid m k (Ph ty kids) K Bl).
Qed.
Definition plain_nameb (s : gostr) : bool :=
  match s with [] => false | _ => true end && negb (existsb (byte_eqb x5d) s) && negb (existsb (byte_eqb BSL) s) &&
  negb (existsb (str_eqb s) (map B ["boolean"; "integer"; "mixed"; "null"; "bool"; "true"; "false"; "int"; "float"; "real"; "double"; "string";
                    "binary"; "array"; "object"; "callable"; "void"; "static"; "$this"; "__DIR__"; "__FILE__"]%string)).
Lemma plain_nameb_ok : forall s, plain_nameb s = true -> plain_name s.
Proof.
  intros s H. unfold plain_nameb in H. apply andb_true_iff in H as (H & H4). apply andb_true_iff in H as (H & H3). apply andb_true_iff in H as (H1 & H2).
  apply negb_true_iff in H2, H3, H4. split; [destruct s; discriminate|]. split; [|split]; intros I.
  - rewrite <- H2 in H1. enough (X : existsb (byte_eqb x5d) s = true) by congruence. apply existsb_exists. exists x5d. split; [exact I|apply byte_eqb_eq; reflexivity].
  - enough (X : existsb (byte_eqb BSL) s = true) by congruence. apply existsb_exists. exists BSL. split; [exact I|apply byte_eqb_eq; reflexivity].
  - match goal with H4 : existsb _ ?l = false |- _ => enough (X : existsb (str_eqb s) l = true) by congruence end. apply existsb_exists. exists s. split; [exact I|apply str_eqb_eq; reflexivity].
Qed.

(** ** Small files *)
Definition class (n : string) (members : list src) : src := P PhClassDeclaration
  [P PhClassDeclarationHeader [word "class"; sp; T TkName n]; sp;
   P PhClassDeclarationBody [word "{"; sp; P PhClassMemberDeclarationList members; sp; word "}"]].
Definition method (n : string) (body : list src) : src := P PhMethodDeclaration
  [P PhMethodDeclarationHeader [T TkFunction "function"; sp; P PhIdentifier [T TkName n]; word "("; word ")"]; sp;
   P PhMethodDeclarationBody [word "{"; sp; P PhStatementList body; sp; word "}"]].
Definition statement (e : src) : src := P PhExpressionStatement [e; word ";"].
Definition php (statements : list src) : src := P PhStatementList (T (TkOther 1) "<?php" :: sp :: statements).
Definition property_of_this (p : string) : src := P PhPropertyAccessExpression [var "$this"; T TkArrow "->"; P PhMemberName [T TkName p]].
Definition assign (l r : src) : src := P PhSimpleAssignmentExpression [l; sp; T TkEquals "="; sp; r].
Definition new_anonymous (members : list src) : src := P PhObjectCreationExpression [word "new"; sp; P PhAnonymousClassDeclaration
  [P PhAnonymousClassDeclarationHeader [word "class"]; sp; P PhClassDeclarationBody [word "{"; P PhClassMemberDeclarationList members; word "}"]]].
Definition string_literal (s : string) : src := T TkStringLiteral s.
Definition call (f : string) (args : list src) : src := P PhFunctionCallExpression
  [name f; P PhArgumentExpressionList ([T TkOpenParenthesis "("] ++ args ++ [T TkCloseParenthesis ")"])].
Definition namespace (n : string) : src := P PhNamespaceDefinition [word "namespace"; sp; P PhNamespaceName [T TkName n]; word ";"].

(** <?php try { } finally { class A { } } *)
Definition in_finally : src := php [P PhTryStatement [word "try"; sp; P PhCompoundStatement [word "{"; sp; word "}"]; sp;
  P (PhOther 0) [word "finally"; sp; P PhCompoundStatement [word "{"; sp; P PhStatementList [class "A" []]; sp; word "}"]]]].
(** <?php class integer { } *)
Definition class_integer : src := php [class "integer" []].
(** <?php namespace N; define('FOO', 1); *)
Definition define_in_namespace : src := php [namespace "N"; sp; statement (call "define" [string_literal "'FOO'"; T TkComma ","; T (TkOther 2) "1"])].
(** <?php class A { function __construct() { $this->a = $this->b = new class {}; } } *)
Definition chained : src := php [class "A" [method "__construct" [statement (assign (property_of_this "a") (assign (property_of_this "b") (new_anonymous [])))]]].
(** <?php class A { function f() { new class {}; } function g() { } } *)
Definition nested_class : src := php [class "A" [method "f" [statement (new_anonymous [])]; sp; method "g" []]].
(** <?php use A\{function} *)
Definition group_use : src := php [P PhNamespaceUseDeclaration [word "use"; sp; P PhNamespaceName [T TkName "A"]; word "\"; word "{";
  P PhNamespaceUseGroupClauseList [P PhNamespaceUseGroupClause [T TkFunction "function"]]; word "}"; word ";"]].
