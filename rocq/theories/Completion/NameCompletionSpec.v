(** The places in which a name is completed. *)
From Coq Require Import String.
From Coq Require Import List Bool NArith ZArith.
From Coq.Strings Require Import Byte.
From Verif Require Import Base.Bytes Base.Protocol Symbols.Symbols Symbols.KeysModel Text.TextModel Text.PositionModel
  Store.FilterModel Store.StoreModel Store.StoreSpec Store.SearchModel Store.SearchSpec Analyse.SyntaxModel Analyse.AnalyseModel Analyse.AnalyseSpec
  Whole.CursorModel Whole.CursorSpec Completion.CompletionModel Completion.CompletionSpec.
Import ListNotations.
Open Scope list_scope.
Open Scope nat_scope.

(** the name [q] stands in an expression, behind "implements" or behind the "use"
    of a class *)
Inductive stands_at (d : document) (q : node) : CompletionSpec.completion -> Prop :=
| at_constant : forall kids, below (Ph PhConstantAccessExpression kids) (d_root d) -> In q kids -> stands_at d q InExpression
| at_implements : forall kids l, below (Ph PhClassInterfaceClause kids) (d_root d) -> In (Ph PhQualifiedNameList l) kids -> In q l -> stands_at d q InImplements
| at_trait_use : forall kids l, below (Ph PhTraitUseClause kids) (d_root d) -> In (Ph PhQualifiedNameList l) kids -> In q l -> stands_at d q InTraitUse.
(** the cursor is in a word of the name, behind its first letter *)
Definition in_name (d : document) (q : node) (pos : position) : Prop :=
  exists ty kids ks t, q = Ph ty kids /\ In (Ph PhNamespaceName ks) kids /\ In (Tk t) ks /\ in_word d t pos.
(** what is wanted where a class is named: behind "new" classes, otherwise
    classes and interfaces *)
Definition wanted_for (k : akind) : option CompletionSpec.completion :=
  match k with
  | AClassTypeDesignator => Some InNew
  | AClassAccess | ATypeDeclaration => Some InType
  | _ => None
  end.

Section Proposals.
Context {TX : Text}.
(** the list offers current declarations of the kinds for the place that match the
    word; below the limit of 1000 it is complete and not marked as cut *)
Definition offers (h : list event) (c : CompletionSpec.completion) (word : gostr) (cl : completion_list) : Prop :=
  (forall x, In x (symbols cl) -> exists s q, In q (searches c word) /\ current h s /\ kind_of s = search_kind q /\ shown s x /\
    (stable_names h -> wanted_at c word s)) /\
  (length (symbols cl) < 1000 -> cl_incomplete cl = false /\
    forall s, current h s -> wanted_at c word s -> exists x, In x (symbols cl) /\ shown s x).
End Proposals.
