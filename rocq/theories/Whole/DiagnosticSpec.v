(** What should be reported about a file. *)
From Coq Require Import String.
From Coq Require Import List Bool ZArith.
From Coq.Strings Require Import Byte.
From Verif Require Import Base.Bytes Base.Protocol Symbols.Symbols Symbols.KeysModel Text.TextModel Text.PositionModel Types.TypesModel
  Types.ImportModel Types.ImportSpec Analyse.SyntaxModel Analyse.AnalyseModel Analyse.AnalyseSpec
  Storage.KvModel Store.FilterModel Store.StoreModel Store.StoreSpec Whole.IndexSpec Whole.DiagnosticModel.
Import ListNotations.
Open Scope list_scope.
Open Scope nat_scope.

(** ** Deprecated *)
(** the @deprecated tag of a declaration *)
Definition deprecation_of (s : symbol) : option Symbols.tag :=
  match s with
  | SClass s => c_deprecated s | SInterface s => i_deprecated s
  | SFunction s => f_deprecated s | SConst s => k_deprecated s | SDefine s => d_deprecated s
  | SMethod s => m_deprecated s | SClassConst s => cc_deprecated s | SProperty s => pr_deprecated s
  | STrait _ | SGlobalVariable _ => None
  end.
(** what is written in the hint about [name], declared as deprecated since a
    version and for a reason *)
Definition says (name : gostr) (t : Symbols.tag) (message : gostr) : Prop :=
  message = name ++ B " is deprecated" ++
    match Symbols.tg_name t, Symbols.tg_description t with
    | [], [] => []
    | version, [] => B ": Since " ++ version
    | [], reason => B ": " ++ reason
    | version, reason => B ": Since " ++ version ++ B " - " ++ reason
    end.
(** the declarations a use of kind [k] of the full name [fqn] can mean *)
Definition hinted (k : akind) (fqn : gostr) : list query :=
  match k with
  | AFunctionCall => [QFunction fqn]
  | AClassTypeDesignator => [QClass fqn]
  | ATypeDeclaration | AClassAccess => [QClass fqn; QInterface fqn]
  | AInterfaceAccess => [QInterface fqn]
  | AConstantAccess => [QConst fqn; QDefine fqn]
  | _ => []
  end.
Section Hints.
Context {TX : Text}.
(** one of the declarations [qs] ask for is deprecated, with the tag [t] *)
Definition outdated (h : list event) (qs : list query) (t : Symbols.tag) : Prop :=
  exists x q, current h x /\ In q qs /\ wanted q x /\ deprecation_of x = Some t.
Definition hint_about (h : list event) (qs : list query) (name : gostr) (dg : diagnostic) : Prop :=
  dg_severity dg = SeverityHint /\ dg_tags dg = [Deprecated] /\ exists t, outdated h qs t /\ says name t (dg_message dg).
(** at the range [r] there is a hint if, and only if, one of the declarations is
    deprecated, and it says so *)
Definition hinted_at (h : list event) (qs : list query) (name : gostr) (r : range) (l : list diagnostic) : Prop :=
  ((exists t, outdated h qs t) -> exists dg, In dg l /\ dg_range dg = r) /\
  forall dg, In dg l -> dg_range dg = r -> hint_about h qs name dg.
(** what a symbol is looked up as: a class by the full names of its types, a function
    or a constant by one full name *)
Definition asks (a : adata) (qs : list query) : Prop :=
  match a_kind a with
  | AFunctionCall | AConstantAccess => exists f, qs = hinted (a_kind a) f
  | k => qs = flat_map (fun t => hinted k (ts_fqn t)) (a_types a)
  end.
End Hints.
(** no two symbols of the file have the range [r] *)
Definition one_at (syms : list asym) (r : range) : Prop :=
  forall a b, In a (flat_map preorder syms) -> In b (flat_map preorder syms) -> a_range a = r -> a_range b = r -> a = b.

(** ** Syntax errors *)
(** the parse errors in the order of the text, without those in doc comments *)
Inductive errors_of : tree -> list parse_error -> Prop :=
| errors_doc : forall kids, errors_of (TPhrase PhDocumentComment kids) []
| errors_phrase : forall ty kids parts, ty <> PhDocumentComment -> Forall2 errors_of kids parts -> errors_of (TPhrase ty kids) (concat parts)
| errors_token : forall t, errors_of (TToken t) []
| errors_error : forall e, errors_of (TError e) [e].
(** where an error is: from the first to the last of the skipped tokens, or at the
    unexpected token if none was skipped *)
Definition error_tokens (e : parse_error) (first last : token) : Prop :=
  match pe_children e with
  | [] => pe_unexpected e = Some first /\ last = first
  | c => (exists rest, c = first :: rest) /\ exists front, c = front ++ [last]
  end.
Definition error_message (type_name : token_type -> gostr) (e : parse_error) : gostr :=
  match pe_unexpected e, pe_expected e with
  | None, None => B "Unknown error"
  | Some u, None => B "Unexpected " ++ type_name (t_type u) ++ B "."
  | None, Some x => B "Expected " ++ x ++ B "."
  | Some u, Some x => B "Unexpected " ++ type_name (t_type u) ++ B ". Expected " ++ x ++ B "."
  end.
Definition reports (type_name : token_type -> gostr) (d : document) (e : parse_error) (dg : diagnostic) : Prop :=
  dg_severity dg = SeverityError /\ dg_message dg = error_message type_name e /\
  exists first last, error_tokens e first last /\ dg_range dg = Rng (pos_at d (t_offset first)) (pos_at d (t_end last)).
(** every error has a token *)
Definition placed_error (e : parse_error) : Prop := pe_children e <> [] \/ pe_unexpected e <> None.
