(** The functions shown in a call: an example in a file with two namespaces. *)
From Coq Require Import String.
From Coq Require Import List Bool ZArith Lia.
From Coq.Strings Require Import Byte.
From Verif Require Import Base.Bytes Base.BytesProofs Base.Protocol Claims.Queries Symbols.Symbols Symbols.KeysModel Text.TextModel Text.PositionModel
  Types.TypesModel Types.ImportModel Types.ImportSpec Types.ImportProofs Rpc.StreamModel Rpc.StreamSpec
  Query.QueryModel Query.QueryStoreModel Query.QuerySpec Query.QueryProofs Query.QueryHistorySpec Query.QueryHistory Query.QuerySound
  Analyse.SyntaxModel Analyse.AnalyseModel Analyse.AnalyseSpec Analyse.DeclareSpec Analyse.DeclareProofs Analyse.UseSpec Analyse.UseProofs Analyse.ResolveSpec Analyse.ResolveProofs
  Analyse.RefModel Analyse.Examples
  Storage.KvModel Store.FilterModel Store.StoreModel Store.StoreSpec Store.StoreProofs Store.LookupProofs Store.LookupKinds Store.Examples
  Whole.IndexSpec Whole.IndexProofs Whole.RefSpec Whole.RefProofs Whole.CursorModel Whole.CursorSpec Whole.CursorProofs
  Whole.DefinitionModel Whole.DefinitionSpec Whole.DefinitionProofs
  Ide.ArgumentModel Members.SignatureModel Claims.Definition
  Claims.Imports Claims.Analyse Claims.Uses Claims.Resolve Claims.Store Claims.Whole Claims.References Claims.Cursor.
Import ListNotations.
Open Scope list_scope.
Open Scope nat_scope.

(** ** C79 go to definition leads to what the name under the cursor means *)

(** ** C87 *)
(** <?php namespace App; function pay() {} pay(); namespace Lib; *)
Definition two_parts : src := php [namespace "App"; sp; function_ "pay"; sp; statement (call "pay" []); sp; namespace "Lib"].
Definition two_parts_doc : doc := Eval vm_compute in made uri_b (B "hash-two-parts") (file two_parts) [B "\App"].
Definition the_call : node := Eval vm_compute in at_way (d_root (file two_parts)) [6].
(** The name of a function is read with the imports of the last namespace of the
    file: in the call of [pay()] in the namespace [App] nothing is shown, although
    [\App\pay], which PHP calls, is declared in front of it. *)
Theorem C87_namespace_refuted : exists st s p f, let d := file two_parts in
  @opened ascii_text ascii_trim_space maybe_filter root_uri [EvSync two_parts_doc] st d s /\
  stands d p the_call /\ (forall declared, declared (B "\App\pay") = true -> php_resolve ImportModel.UseFunction declared (snd p) (fst p) pay = B "\App\pay") /\
  @current ascii_text [EvSync two_parts_doc] (SFunction f) /\ @wanted ascii_text (QFunction (B "\App\pay")) (SFunction f) /\
  FunctionCall_signatures st (last (st_imports s) (Table (Pos 0 0) None [] [] [])) (text pay) = Some [].
Proof.
  destruct (C69_no_crash_partial (TX := ascii_text) (file two_parts) ascii_trim_ok) as (s & E); [apply well_parsedb_ok; vm_compute; reflexivity|].
  eexists _, s, (B "App", []), (match nth 0 (d_symbols two_parts_doc) (SClass class_A) with SFunction f => f | _ => Function zero_loc zero_loc (TS [] [] 0) [] [] [] None end). cbv zeta. split.
  { split; [exact ascii_text_ok|]. split; [|split; [vm_compute; reflexivity|split; [exact E|apply imports_outsideb_ok; vm_compute; reflexivity]]].
    constructor; [cbn [event_ok]; unfold two_parts_doc; ok|constructor]. }
  split; [stand 6|]. split.
  { intros declared D. vm_compute in D |- *. rewrite D. reflexivity. }
  split.
  { exists uri_b, two_parts_doc. split; [vm_compute; reflexivity|]. split; [vm_compute; repeat split; discriminate|].
    exists [], []. split; [vm_compute; reflexivity|intros s' []]. }
  split; [vm_compute; reflexivity|].
  assert (X : Done tt s = @analyse ascii_text ascii_trim_space (file two_parts)) by (symmetry; exact E). vm_compute in X. injection X as ->.
  vm_compute; reflexivity.
Qed.
Print Assumptions C87_namespace_refuted.
