(** From a file's text to the index: what the store is handed for an analysed
    file (store.go:490-560 writeAllSymbols). *)
From Coq Require Import String.
From Coq Require Import List Bool ZArith.
From Coq.Strings Require Import Byte.
From Verif Require Import Base.Bytes Base.Protocol Symbols.Symbols Symbols.KeysModel Types.TypesModel
  Rpc.StreamModel Analyse.SyntaxModel Analyse.AnalyseModel Analyse.DeclareSpec Storage.KvModel Store.FilterModel Store.StoreModel Store.StoreSpec.
Import ListNotations.
Open Scope list_scope.
Open Scope nat_scope.

(** symbol.go:126-161 traverseDocument: a symbol in front of its children *)
Fixpoint preorder (s : asym) : list adata := match s with ASym a kids => a :: flat_map preorder kids end.

(** the Go types that are serialisable *)
Definition kind_of_analysis (k : akind) : option kind :=
  match k with
  | AClass => Some KClass | AInterface => Some KInterface | ATrait => Some KTrait | AFunction => Some KFunction
  | AMethod => Some KMethod | AProperty => Some KProperty | AConst => Some KConst | AClassConst => Some KClassConst
  | ADefine => Some KDefine | AGlobalVariable => Some KGlobalVariable
  | _ => None
  end.
Definition kept (a : adata) : bool := match kind_of_analysis (a_kind a) with Some _ => true | None => false end.
(** the symbols of the file the store keeps, in their order *)
Definition kept_symbols (syms : list asym) : list adata := List.filter kept (flat_map preorder syms).

(** The record the store is handed for the symbol [a] of the file [u]: same
    kind, name, place and class. Its other fields (descriptions, types,
    parameters, values) are left open. *)
Definition hands_over (u : gostr) (a : adata) (s : symbol) : Prop :=
  kind_of_analysis (a_kind a) = Some (kind_of s) /\
  match s with
  | SClass c => Symbols.c_name c = a_name a /\ c_location c = Loc u (a_range a)
  | SInterface i => i_name i = a_name a /\ i_location i = Loc u (a_range a)
  | STrait t => t_name t = a_name a /\ t_location t = Loc u (a_range a)
  | SFunction f => f_name f = a_name a /\ f_location f = Loc u (a_range a)
  | SConst k => k_name k = a_name a /\ k_location k = Loc u (a_range a)
  | SDefine k => d_name k = a_name a /\ d_location k = Loc u (a_range a)
  | SMethod m => m_name m = ts_fqn (a_name a) /\ m_location m = Loc u (a_range a) /\ m_scope m = a_scope a /\
                 m_visibility m = a_vis a /\ m_static m = a_static a
  | SClassConst k => cc_name k = ts_fqn (a_name a) /\ cc_location k = Loc u (a_range a) /\ cc_scope k = a_scope a /\ cc_visibility k = a_vis a
  | SProperty p => pr_name p = ts_fqn (a_name a) /\ pr_location p = Loc u (a_range a) /\ pr_scope p = a_scope a /\
                   pr_visibility p = a_vis a /\ pr_static p = a_static a
  | SGlobalVariable g => g_name g = ts_fqn (a_name a) /\ g_location g = Loc u (a_range a)
  end.
(** [sd] is what the store is handed for the text and tree [f] *)
Definition made_from {TX : Text} {TR : TrimSpace} (sd : doc) (f : document) : Prop :=
  exists s, analyse f = Done tt s /\ Forall2 (hands_over (d_uri sd)) (kept_symbols (st_out s)) (d_symbols sd).
(** every indexed document comes from the analysis of a file *)
Definition all_analysed {TX : Text} {TR : TrimSpace} (h : list event) : Prop :=
  forall sd, In sd (synced_docs h) -> exists f, made_from sd f.

(** ** Reading answers *)
Definition symbol_location (s : symbol) : location :=
  match s with
  | SClass s => c_location s | SInterface s => i_location s | STrait s => t_location s
  | SFunction s => f_location s | SConst s => k_location s | SDefine s => d_location s
  | SMethod s => m_location s | SClassConst s => cc_location s
  | SProperty s => pr_location s | SGlobalVariable s => g_location s end.
(** the look-up by full name for a declaration of kind [k] *)
Definition by_name (k : akind) (name : gostr) : option query :=
  match k with
  | AClass => Some (QClass name) | AInterface => Some (QInterface name) | ATrait => Some (QTrait name)
  | AFunction => Some (QFunction name) | AConst => Some (QConst name) | ADefine => Some (QDefine name)
  | _ => None
  end.
(** the look-up by class and name for a member of kind [k] *)
Definition by_member (k : akind) (class name : gostr) : option query :=
  match k with
  | AMethod => Some (QMethod class name) | AProperty => Some (QProperty class name) | AClassConst => Some (QClassConst class name)
  | _ => None
  end.
(** [a] bears what [q] asks for *)
Definition bears {TX : Text} (q : query) (a : adata) : Prop :=
  match q with
  | QClass n => a_kind a = AClass /\ same_class_name (ts_fqn (a_name a)) n
  | QInterface n => a_kind a = AInterface /\ ts_fqn (a_name a) = n
  | QTrait n => a_kind a = ATrait /\ ts_fqn (a_name a) = n
  | QFunction n => a_kind a = AFunction /\ ts_fqn (a_name a) = n
  | QConst n => a_kind a = AConst /\ ts_fqn (a_name a) = n
  | QDefine n => a_kind a = ADefine /\ ts_fqn (a_name a) = n
  | QGlobalVariable n => a_kind a = AGlobalVariable /\ ts_fqn (a_name a) = n
  | QMethod c n => a_kind a = AMethod /\ ts_fqn (a_scope a) = c /\ to_lower (ts_fqn (a_name a)) = to_lower n
  | QAllMethods c => a_kind a = AMethod /\ ts_fqn (a_scope a) = c
  | QProperty c n => a_kind a = AProperty /\ ts_fqn (a_scope a) = c /\ ts_fqn (a_name a) = n
  | QAllProperties c => a_kind a = AProperty /\ ts_fqn (a_scope a) = c
  | QClassConst c n => a_kind a = AClassConst /\ ts_fqn (a_scope a) = c /\ ts_fqn (a_name a) = n
  | QAllClassConsts c => a_kind a = AClassConst /\ ts_fqn (a_scope a) = c
  end.
(** [x] is a result in the file [u] at the place of [a], with the visibility of
    [a] where the index keeps it *)
Definition shows (u : gostr) (x : symbol) (a : adata) : Prop :=
  kind_of_analysis (a_kind a) = Some (kind_of x) /\ symbol_location x = Loc u (a_range a) /\
  match x with
  | SMethod m => m_visibility m = a_vis a /\ m_static m = a_static a
  | SProperty p => pr_visibility p = a_vis a /\ pr_static p = a_static a
  | _ => True
  end.
