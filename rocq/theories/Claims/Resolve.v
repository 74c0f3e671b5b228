(** Claims about the classes that names in a file stand for. *)
From Coq Require Import String.
From Coq Require Import List Bool ZArith Lia.
From Coq.Strings Require Import Byte.
From Verif Require Import Base.Bytes Base.BytesProofs Base.Protocol Symbols.Symbols Symbols.KeysModel Text.TextModel
  Types.TypesModel Types.ImportModel Types.ImportSpec Rpc.StreamModel Rpc.StreamSpec Store.Examples
  Analyse.SyntaxModel Analyse.AnalyseModel Analyse.AnalyseSpec Analyse.DeclareSpec Analyse.DeclareProofs
  Analyse.UseSpec Analyse.ResolveSpec Analyse.ResolveProofs Analyse.Examples Claims.Uses.
Import ListNotations.
Open Scope list_scope.
Open Scope nat_scope.

(** ** C76 a class named in a file is the class PHP takes the name for *)
(** [p] is the namespace and the imports in front of the statement [m]; the class
    is named at [at_], somewhere in [m].  What is missing: see C32 for names that
    are not spelled as imported and for imported names written in full, C75 for
    parts that are not read, and below for groups. *)
Theorem C76_class_uses_partial : forall {TX : Text} {TR : TrimSpace} d s p m n k name at_ pn declared,
  analyse d = Done tt s -> imports_outside d ->
  stands d p m -> reads_in d m n -> uses d n k name at_ -> names_class k name at_ ->
  named d at_ (text pn) -> valid pn -> ~ builtin (text pn) -> spelled_alike (snd p) (first pn) -> not_shadowed ImportModel.UseClass (snd p) pn ->
  class_reported d k at_ (php_resolve ImportModel.UseClass declared (snd p) (fst p) pn) (st_out s).
Proof. exact @class_uses. Qed.
Print Assumptions C76_class_uses_partial.

(** *** An example *)
Definition use_group (prefix : string) (clauses : list src) : src := P PhNamespaceUseDeclaration
  [word "use"; sp; P PhNamespaceName [T TkName prefix]; word "\"; word "{"; P PhNamespaceUseGroupClauseList clauses; word "}"; word ";"].
Definition new (n : src) : src := P PhObjectCreationExpression [word "new"; sp; P PhClassTypeDesignator [n]].
(** <?php namespace App; use Lib\{Basket as Bag,Item}; return new Bag; new Total; *)
Definition imported : src := php
  [namespace "App"; sp;
   use_group "Lib" [P PhNamespaceUseGroupClause [P PhNamespaceName [T TkName "Basket"]; sp; P PhNamespaceAliasingClause [word "as"; sp; T TkName "Bag"]]; T TkComma ",";
                    P PhNamespaceUseGroupClause [P PhNamespaceName [T TkName "Item"]]]; sp;
   P PhReturnStatement [word "return"; sp; new (name "Bag"); word ";"]; sp; statement (new (name "Total"))].
Definition imports_outsideb (d : document) : bool :=
  forallb (fun i => match i with IStatement n => forallb (fun m => negb (is_import m)) (nodes n) | _ => true end) (items d) &&
  forallb (fun n => negb (namespaceb n) || names_firstb false (node_kids n)) (nodes (d_root d)) &&
  forallb (fun n => match n with Ph PhNamespaceUseGroupClause kids => match own_kind kids with None => true | _ => false end | _ => true end) (nodes (d_root d)).
Lemma imports_outsideb_ok : forall d, imports_outsideb d = true -> imports_outside d.
Proof.
  intros d H. apply andb_true_iff in H as (H & H3). apply andb_true_iff in H as (H1 & H2). rewrite forallb_forall in H1, H2, H3. split; [|split].
  - intros n m I Bl. specialize (H1 _ I). cbv beta iota in H1. rewrite forallb_forall in H1. apply negb_true_iff. exact (H1 m (below_nodes _ _ Bl)).
  - intros n Bl N before l after k E. specialize (H2 n (below_nodes _ _ Bl)). rewrite (namespaceb_ok n N) in H2. cbn [negb orb] in H2. rewrite E in H2.
    exact (names_firstb_ok before l after H2 k).
  - intros kids Bl. specialize (H3 _ (below_nodes _ _ Bl)). cbv beta iota in H3. destruct (own_kind kids); [discriminate H3|reflexivity].
Qed.
Definition builtinb (s : gostr) : bool := existsb (str_eqb s) (map B ["mixed"; "null"; "bool"; "true"; "false"; "int"; "float"; "real"; "double"; "string"; "binary"; "array";
               "object"; "callable"; "void"; "static"; "$this"; "__DIR__"; "__FILE__"; "boolean"; "integer"]%string).
Lemma builtinb_ok : forall s, builtinb s = false -> ~ builtin s.
Proof. intros s H I. enough (X : builtinb s = true) by congruence. apply existsb_exists. exists s. split; [exact I|apply str_eqb_eq; reflexivity]. Qed.
Definition identifierb (s : gostr) : bool := match s with [] => false | _ => true end && negb (existsb (byte_eqb x5d) s) && negb (existsb (byte_eqb BSL) s).
Lemma identifierb_ok : forall s, identifierb s = true -> ImportSpec.identifier s.
Proof.
  intros s H. apply andb_true_iff in H as (H & H3). apply andb_true_iff in H as (H1 & H2). apply negb_true_iff in H2, H3. split; [destruct s; discriminate|split; intros I].
  - enough (X : existsb (byte_eqb BSL) s = true) by congruence. apply existsb_exists. exists BSL. split; [exact I|apply byte_eqb_eq; reflexivity].
  - enough (X : existsb (byte_eqb x5d) s = true) by congruence. apply existsb_exists. exists x5d. split; [exact I|apply byte_eqb_eq; reflexivity].
Qed.
(** the statement is the item number [i] *)
Ltac stand i := match goal with |- stands ?d _ _ => exists (firstn i (items d)), (skipn (S i) (items d)); split; vm_compute; reflexivity end.
Definition Bag : pname := Name false (B "Bag") [].
Definition return_statement : node := nth 6 (node_kids (d_root (file imported))) (Err None).
Definition new_bag : node := nth 2 (node_kids return_statement) (Err None).
Example C76_hypotheses_met : exists p s, let d := file imported in
  @analyse ascii_text ascii_trim_space d = Done tt s /\ imports_outside d /\ stands d p return_statement /\ @reads_in ascii_text d return_statement new_bag /\
  @uses ascii_text d new_bag AClassTypeDesignator (B "Bag") (nth 2 (node_kids new_bag) (Err None)) /\
  named d (nth 2 (node_kids new_bag) (Err None)) (text Bag) /\ valid Bag /\ ~ builtin (text Bag) /\
  spelled_alike (snd p) (first Bag) /\ not_shadowed ImportModel.UseClass (snd p) Bag /\
  php_resolve ImportModel.UseClass (fun _ => false) (snd p) (fst p) Bag = B "\Lib\Basket".
Proof.
  eexists (B "App", [Use ImportModel.UseClass (B "Lib\Basket") (Some (B "Bag")) _; Use ImportModel.UseClass (B "Lib\Item") None _]), _. cbv zeta.
  split; [vm_compute; reflexivity|]. split; [apply imports_outsideb_ok; vm_compute; reflexivity|]. split; [stand 6|].
  split; [|split; [|split; [vm_compute; reflexivity|split; [|split; [|split; [|split; [|vm_compute; reflexivity]]]]]]].
  - eapply reads_more; [apply reads_it|]. apply (reads_part _ PhReturnStatement _ new_bag); [reflexivity|member].
  - eapply (uses_new _ _ _ (B "Bag")); [apply not_define; vm_compute; reflexivity|member|reflexivity|vm_compute; reflexivity|].
    eexists. split; vm_compute; reflexivity.
  - split; [apply identifierb_ok; vm_compute; reflexivity|intros p []].
  - apply builtinb_ok. vm_compute. reflexivity.
  - intros u [<-|[<-|[]]] H; [reflexivity|]. vm_compute in H. discriminate H.
  - intros X. discriminate X.
Qed.
(** a function imported in a group is taken for a class *)
Definition group_function : src := php
  [use_group "A" [P PhNamespaceUseGroupClause [T TkFunction "function"; sp; P PhNamespaceName [T TkName "F"]]]; sp; statement (new (name "F"))].
Definition new_f : node := nth 0 (node_kids (nth 4 (node_kids (d_root (file group_function))) (Err None))) (Err None).
Theorem C76_group_refuted : exists d p m n at_ s, let F := Name false (B "F") [] in
  text_of d = B "<?php use A\{function F}; new F;" /\ @analyse ascii_text ascii_trim_space d = Done tt s /\
  stands d p m /\ @reads_in ascii_text d m n /\ @uses ascii_text d n AClassTypeDesignator (B "F") at_ /\ named d at_ (text F) /\
  php_resolve ImportModel.UseClass (fun _ => false) (snd p) (fst p) F = B "\F" /\ class_reported d AClassTypeDesignator at_ (B "\A\F") (st_out s) /\
  length (st_out s) = 1.
Proof.
  eexists (file group_function), ([], [Use ImportModel.UseFunction (B "A\F") None _]), (nth 4 (node_kids (d_root (file group_function))) (Err None)), new_f, (nth 2 (node_kids new_f) (Err None)), _.
  cbv zeta. split; [vm_compute; reflexivity|]. split; [vm_compute; reflexivity|]. split; [stand 4|]. split; [|split; [|split; [vm_compute; reflexivity|split; [vm_compute; reflexivity|split; [|reflexivity]]]]].
  - eapply reads_more; [apply reads_it|]. apply (reads_part _ PhExpressionStatement _ new_f); [reflexivity|member].
  - eapply (uses_new _ _ _ (B "F")); [apply not_define; vm_compute; reflexivity|member|reflexivity|vm_compute; reflexivity|].
    eexists. split; vm_compute; reflexivity.
  - eexists _, _. split; [left; reflexivity|]. split; [reflexivity|]. split; [vm_compute; reflexivity|]. split; [reflexivity|vm_compute; reflexivity].
Qed.
Print Assumptions C76_group_refuted.
