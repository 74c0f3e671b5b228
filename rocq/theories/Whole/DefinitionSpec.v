(** What "go to definition" should answer. *)
From Coq Require Import String.
From Coq Require Import List Bool ZArith.
From Coq.Strings Require Import Byte.
From Verif Require Import Base.Bytes Base.Protocol Symbols.Symbols Symbols.KeysModel Text.TextModel Text.PositionModel Types.TypesModel
  Types.ImportModel Types.ImportSpec Analyse.SyntaxModel Analyse.AnalyseModel Analyse.AnalyseSpec
  Storage.KvModel Store.FilterModel Store.StoreModel Store.StoreSpec Whole.IndexSpec Whole.CursorModel Whole.CursorSpec.
Import ListNotations.
Open Scope list_scope.
Open Scope nat_scope.

Definition location_of (s : symbol) : location :=
  match s with
  | SClass s => c_location s | SInterface s => i_location s | STrait s => t_location s
  | SFunction s => f_location s | SConst s => k_location s | SDefine s => d_location s
  | SMethod s => m_location s | SClassConst s => cc_location s
  | SProperty s => pr_location s | SGlobalVariable s => g_location s
  end.
Section Answers.
Context {TX : Text}.
(** a declaration that [q] asks for is at [loc] *)
Definition declared_at (h : list event) (q : query) (loc : location) : Prop := exists x, current h x /\ wanted q x /\ location_of x = loc.
(** a place an editor can open *)
Definition can_open (loc : location) : Prop := exists path, l_uri loc = B "file://" ++ path.
(** the answer is where the declarations are that one of [qs] asks for, and nothing else *)
Definition leads_to (h : list event) (qs : list query) (answer : option (list location)) : Prop :=
  exists l, answer = Some l /\ forall loc, In loc l <-> can_open loc /\ exists q, In q qs /\ declared_at h q loc.
(** the declarations that are meant where a class is named *)
Definition meant (k : akind) (fqn : gostr) : list query :=
  match k with
  | AClassAccess => [QClass fqn]
  | AInterfaceAccess => [QInterface fqn]
  | ATraitAccess => [QTrait fqn]
  | ATypeDeclaration => [QClass fqn; QInterface fqn]
  | _ => []
  end.
(** [new] leads to the constructor of the class, if it has one that can be called
    from everywhere, else to the class *)
Definition constructor (h : list event) (c : class) (m : method) : Prop :=
  current h (SMethod m) /\ ts_fqn (m_scope m) = ts_fqn (Symbols.c_name c) /\ to_lower (m_name m) = to_lower (B "__construct") /\ m_visibility m = Public.
Definition constructed_at (h : list event) (c : class) (loc : location) : Prop :=
  (exists m, constructor h c m /\ m_location m = loc) \/ ((forall m, ~ constructor h c m) /\ c_location c = loc).
End Answers.

(** the symbols, as far as it matters for the cursor at [pos], are listed in the
    order in which they begin, and what is inside a symbol is inside its range *)
Fixpoint nested_at (pos : position) (s : asym) : Prop :=
  match s with
  | ASym a kids => (forall b, In b (flat_map preorder kids) -> touches pos (a_range b) -> touches pos (a_range a)) /\
                   (fix all (l : list asym) : Prop := match l with [] => True | k :: l => nested_at pos k /\ all l end) kids
  end.
Definition listed_in_order (pos : position) (syms : list asym) : Prop :=
  forall before b after c, flat_map preorder syms = before ++ b :: after -> In c (b :: after) -> touches pos (a_range c) -> (0 <= IsInRange pos (a_range b))%Z.
(** [a] is the only symbol with types that the cursor is in or at the end of *)
Definition alone (pos : position) (syms : list asym) (a : adata) : Prop :=
  touches pos (a_range a) /\ forall b, In b (flat_map preorder syms) -> has_types (a_kind b) = true -> touches pos (a_range b) -> b = a.
(** the cursor is on the use of kind [k] at the node [at_] *)
Definition cursor_on (d : document) (syms : list asym) (pos : position) (k : akind) (at_ : node) : Prop :=
  Forall (nested_at pos) syms /\ listed_in_order pos syms /\
  forall a, In a (flat_map preorder syms) -> a_kind a = k -> sits_at d at_ a -> alone pos syms a.
(** an import does not give the first part of the full name [fqn] to something else *)
Definition not_renamed (uses : list use_decl) (fqn : gostr) : Prop :=
  forall u, In u uses -> u_kind u = ImportModel.UseClass ->
    fqn = BSL :: bound_name u \/ (exists rest, fqn = BSL :: bound_name u ++ BSL :: rest) -> u_name u = bound_name u.
