(** What it means that the cursor is on the name of a declaration. *)
From Coq Require Import String.
From Coq Require Import List Bool ZArith Sorting.Sorted.
From Coq.Strings Require Import Byte.
From Verif Require Import Base.Bytes Base.Protocol Symbols.Symbols Symbols.KeysModel Text.TextModel Text.PositionModel Types.TypesModel
  Types.ImportModel Types.ImportSpec Analyse.SyntaxModel Analyse.AnalyseModel Analyse.AnalyseSpec Analyse.DeclareSpec Analyse.ResolveSpec
  Storage.KvModel Store.FilterModel Store.StoreModel Store.StoreSpec.
Import ListNotations.
Open Scope list_scope.
Open Scope nat_scope.

(** the tokens of the text, from left to right *)
Fixpoint written (n : node) : list token :=
  match n with Ph _ kids => flat_map written kids | Tk t => [t] | Err _ => [] end.
Definition tokens_apart (d : document) : Prop := StronglySorted (fun a b => t_end a <= t_offset b) (written (d_root d)).
(** the cursor is in the word [t], behind its first letter *)
Definition in_word (d : document) (t : token) (pos : position) : Prop :=
  exists o, OffsetAtPosition (d_text d) pos = Some o /\ (Z.of_nat (t_offset t) < o <= Z.of_nat (t_end t))%Z.
(** nothing is read in a token, a parse error, a phrase the analysis does not know
    (inline text, "declare") or a comment without tags *)
Definition inert (n : node) : Prop :=
  match n with
  | Tk _ | Err _ | Ph (PhOther _) _ => True
  | Ph PhDocumentComment kids => forall ks, ~ In (Ph PhDocumentCommentTag ks) kids
  | _ => False
  end.
(** the namespace of a file: it is at the top; or there is none *)
Definition main_namespace (d : document) (ns : gostr) (imports : list use_decl) : Prop :=
  (exists skipped n rest, items d = map IStatement skipped ++ INamespace n ns :: rest /\ Forall inert skipped /\ imports = uses_ahead rest) \/
  (no_namespace (items d) /\ ns = [] /\ imports = uses_ahead (items d)).
Definition class_header (ty : phrase_type) : Prop := ty = PhClassDeclarationHeader \/ ty = PhInterfaceDeclarationHeader \/ ty = PhTraitDeclarationHeader.

(** the answer is where the latest documents refer to one of [refs], and nothing else *)
Definition answers (h : list event) (refs : list gostr) (answer : option (list location)) : Prop :=
  exists l, answer = Some l /\ forall loc, In loc l <-> exists ref, In ref refs /\ referenced h ref loc.
(** the cursor is in the range or at its end *)
Definition touches (pos : position) (r : range) : Prop := IsInRange pos r = 0%Z \/ ComparePos pos (r_end r) = 0%Z.
