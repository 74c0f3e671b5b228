(** What it means that the classes named in a file are the ones PHP takes them
    for: the namespace and the imports that hold where a name is used. *)
From Coq Require Import String.
From Coq Require Import List Bool ZArith.
From Coq.Strings Require Import Byte.
From Verif Require Import Base.Bytes Base.Protocol Symbols.Symbols Symbols.KeysModel Text.TextModel Text.PositionModel
  Types.TypesModel Types.ImportModel Types.ImportSpec Analyse.SyntaxModel Analyse.AnalyseModel Analyse.AnalyseSpec Analyse.DeclareSpec Analyse.UseSpec.
Import ListNotations.
Open Scope list_scope.
Open Scope nat_scope.

(** ** Use declarations *)
Definition namespace_name (n : node) : bool := match n with Ph PhNamespaceName _ => true | _ => false end.
Definition aliasing (n : node) : bool := match n with Ph PhNamespaceAliasingClause _ => true | _ => false end.
(** a clause: the name, and the alias behind "as" *)
Definition clause_name (d : document) (kids : list node) : gostr :=
  match last_of namespace_name kids with Some n => text_or_nothing d n | None => [] end.
Definition clause_alias (d : document) (kids : list node) : option gostr :=
  match last_of aliasing kids with
  | Some n => match find name_token (node_kids n) with
              | Some t => match text_or_nothing d t with [] => None | a => Some a end
              | None => None
              end
  | None => None
  end.
(** a clause in a group can have a "function" or "const" of its own *)
Definition own_kind (kids : list node) : option ImportModel.use_kind :=
  match find (fun c => match c with Tk (Tok (TkFunction | TkConst) _ _) => true | _ => false end) kids with
  | Some (Tk (Tok TkFunction _ _)) => Some ImportModel.UseFunction
  | Some _ => Some ImportModel.UseConst
  | None => None
  end.
(** the clauses of a declaration; [k]: what is imported, "function" or "const"
    in front of the names; [prefix]: the name in front of a group *)
Fixpoint imports_of (d : document) (k : ImportModel.use_kind) (prefix : gostr) (kids : list node) : list use_decl :=
  match kids with
  | [] => []
  | Ph PhNamespaceUseClauseList cs :: kids =>
      flat_map (fun c => match c with
        | Ph PhNamespaceUseClause ks => [Use k (clause_name d ks) (clause_alias d ks) (NodeRange d c)]
        | _ => []
        end) cs ++ imports_of d k prefix kids
  | Ph PhNamespaceUseGroupClauseList cs :: kids =>
      flat_map (fun c => match c with
        | Ph PhNamespaceUseGroupClause ks => [Use (match own_kind ks with Some k => k | None => k end) (prefix ++ BSL :: clause_name d ks) (clause_alias d ks) (NodeRange d c)]
        | _ => []
        end) cs ++ imports_of d k prefix kids
  | (Ph PhNamespaceName _ as n) :: kids => imports_of d k (text_or_nothing d n) kids
  | Tk (Tok TkFunction _ _) :: kids => imports_of d ImportModel.UseFunction prefix kids
  | Tk (Tok TkConst _ _) :: kids => imports_of d ImportModel.UseConst prefix kids
  | _ :: kids => imports_of d k prefix kids
  end.

(** ** Where a statement stands *)
(** A file is a row of namespaces, imports and other statements. *)
Inductive item :=
| INamespace (at_ : node) (name : gostr)
| IUses (us : list use_decl)
| IStatement (n : node).
Fixpoint items_in (d : document) (n : node) : list item :=
  match n with
  | Ph PhNamespaceDefinition kids =>
      INamespace n (match last_of namespace_name kids with Some k => text_or_nothing d k | None => [] end) ::
      flat_map (fun k => match k with Ph PhStatementList ks => flat_map (items_in d) ks | _ => [] end) kids
  | Ph PhNamespaceUseDeclaration kids => [IUses (imports_of d ImportModel.UseClass [] kids)]
  | _ => [IStatement n]
  end.
Definition items (d : document) : list item := flat_map (items_in d) (node_kids (d_root d)).
(** the namespace and the imports made in it so far; a namespace begins without
    imports *)
Definition place := (gostr * list use_decl)%type.
Definition behind (p : place) (i : item) : place :=
  match i with
  | INamespace _ name => (name, [])
  | IUses us => (fst p, snd p ++ us)
  | IStatement _ => p
  end.
(** the imports that are made later in the same namespace *)
Fixpoint uses_ahead (l : list item) : list use_decl :=
  match l with
  | [] | INamespace _ _ :: _ => []
  | IUses us :: l => us ++ uses_ahead l
  | IStatement _ :: l => uses_ahead l
  end.
(** [m] is a statement of the file, [p] is in front of it *)
Definition stands (d : document) (p : place) (m : node) : Prop :=
  exists before after, items d = before ++ IStatement m :: after /\ p = fold_left behind before ([], []).

(** ** Conditions *)
Definition is_import (n : node) : bool := match n with Ph (PhNamespaceDefinition | PhNamespaceUseDeclaration) _ => true | _ => false end.
(** the name of a namespace is in front of its statements *)
Definition name_first (n : node) : Prop := forall before l after k,
  node_kids n = before ++ Ph PhStatementList l :: after -> In k after -> node_type k <> Some PhNamespaceName.
(** namespaces and imports are not inside other statements; what is imported is
    said in front of a group *)
Definition imports_outside (d : document) : Prop :=
  (forall n m, In (IStatement n) (items d) -> below m n -> is_import m = false) /\
  (forall n, below n (d_root d) -> node_type n = Some PhNamespaceDefinition -> name_first n) /\
  (forall kids, below (Ph PhNamespaceUseGroupClause kids) (d_root d) -> own_kind kids = None).

(** ** The order in the text *)
Definition begins (d : document) (n : node) : position := pos_at d (match FirstToken n with Some t => t_offset t | None => 0 end).
(** The file and the namespaces in front of a statement begin before [pos], those
    behind it do not. *)
Definition in_order (d : document) (before : list item) (pos : position) (after : list item) : Prop :=
  (forall n, n = d_root d \/ (exists name, In (INamespace n name) before) -> (0 < ComparePos pos (begins d n))%Z) /\
  (forall n name, In (INamespace n name) after -> (ComparePos pos (begins d n) <= 0)%Z).
Definition no_namespace (l : list item) : Prop := forall n name, ~ In (INamespace n name) l.

(** ** Uses of classes *)
(** a class is named at [at]; "self", "static" and "parent" are not names *)
Definition names_class (k : akind) (name : gostr) (at_ : node) : Prop :=
  match k with
  | AClassTypeDesignator | ATraitAccess | AInterfaceAccess | ATypeDeclaration => True
  | AClassAccess => qualified_name at_ = true /\ IsNameRelative name = false /\ IsNameParent name = false
  | _ => False
  end.
(** the use is reported with the class [fqn] *)
Definition class_reported (d : document) (k : akind) (at_ : node) (fqn : gostr) (syms : list asym) : Prop :=
  exists a t, In a (flat_map symbols_in syms) /\ a_kind a = k /\ sits_at d at_ a /\ a_types a = [t] /\ ts_fqn t = fqn.
