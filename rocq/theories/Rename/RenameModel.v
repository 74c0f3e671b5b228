(** Renaming a variable: internal/lsp/reference.go:89-119. *)
From Coq Require Import String.
From Coq Require Import List Bool ZArith.
From Coq.Strings Require Import Byte.
From Verif Require Import Base.Bytes Base.Protocol Symbols.Symbols Symbols.KeysModel Types.TypesModel Text.TextModel Text.PositionModel Rpc.StreamModel
  Ide.VariableModel Analyse.SyntaxModel Analyse.AnalyseModel Whole.CursorModel.
Import ListNotations.
Open Scope list_scope.
Open Scope nat_scope.

(** protocol.TextEdit: what is replaced, and by what *)
Record text_edit := Edit { te_range : range; te_text : gostr }.
(** variable.go:236-242 GetContextualVariables; a name that is not in the map
    has no variables *)
Definition GetContextualVariables (m : var_map) (name : gostr) : list context_var :=
  match vars_get m name with Some l => l | None => [] end.
Section Rename.
Context {TX : Text}.
(** document.go:91-104: the variable tables after the analysis of [d] ended in [s] *)
Definition tables_of (d : document) (s : state) : var_doc := LoadTables (NodeRange d (d_root d)) (st_vars s).
(** reference.go:89-119 rename, for an open document: the edits of this document
    (the map of changes has no other entry). Only the kind Variable is handled:
    the other kinds give no edits. *)
Definition rename (d : document) (s : state) (pos : position) (new_name : gostr) : list text_edit :=
  match HasTypesAtPos (st_out s) pos with
  | Some a =>
      match a_kind a with
      | AVariable =>
          match GetVariableTableAt (tables_of d s) pos with
          | Some i =>
              match nth_error (vd_tables (tables_of d s)) i with
              | Some t => map (fun c => Edit (v_range (cv_var c)) new_name) (GetContextualVariables (vt_vars t) (ts_original (a_name a)))
              | None => []
              end
          | None => []
          end
      | _ => []
      end
  | None => []
  end.
End Rename.
