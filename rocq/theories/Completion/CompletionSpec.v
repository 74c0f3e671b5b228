(** What the completion lists should contain. *)
From Coq Require Import String.
From Coq Require Import List Bool NArith ZArith.
From Coq.Strings Require Import Byte.
From Verif Require Import Base.Bytes Base.Protocol Symbols.Symbols Symbols.KeysModel Words.TokeniserModel Words.TokeniserSpec
  Store.FilterModel Store.StoreModel Store.StoreSpec Store.SearchModel Store.SearchSpec Types.TypesModel
  Completion.CompletionModel.
Import ListNotations.
Open Scope list_scope.

(** ** The places in which names are completed *)
Inductive completion := InExpression | InNew | InType | InImplements | InTraitUse.
Definition complete {T : Text} {X : XorFilter} (c : completion) : store -> gostr -> option completion_list :=
  match c with
  | InExpression => nameCompletion
  | InNew => classCompletion
  | InType => typeCompletion
  | InImplements => interfaceCompletion
  | InTraitUse => traitCompletion
  end.
(** the searches whose results are proposed *)
Definition searches (c : completion) (word : gostr) : list search :=
  match c with
  | InExpression => [FindClasses word; FindInterfaces word; FindConsts word; FindDefines word; FindFunctions word]
  | InNew => [FindClasses word]
  | InType => [FindClasses word; FindInterfaces word]
  | InImplements => [FindInterfaces word]
  | InTraitUse => [FindTraits word]
  end.
Definition wanted_at {T : Text} (c : completion) (word : gostr) (s : symbol) : Prop := exists q, In q (searches c word) /\ found_by q s.
Definition symbols (cl : completion_list) : list symbol := flat_map (fun p => match p with PSymbol s => [s] | PNamespace _ _ => [] end) (cl_items cl).

(** ** workspace/symbol *)
Definition workspace_searches (word : gostr) : list search :=
  [FindClasses word; FindConsts word; FindClassConsts [] word; FindDefines word; FindFunctions word;
   FindInterfaces word; FindMethods [] word; FindProperties [] word; FindTraits word].
(** the entry that shows a declaration: its kind, name, where it is, and for
    members the class it is in *)
Definition entry_of (s : symbol) (i : symbol_information) : Prop :=
  match s with
  | SClass c => i = SymbolInformation IClass (ts_fqn (c_name c)) (c_location c) []
  | STrait t => i = SymbolInformation IClass (ts_fqn (t_name t)) (t_location t) []
  | SInterface a => i = SymbolInformation IInterface (ts_fqn (i_name a)) (i_location a) []
  | SFunction f => i = SymbolInformation IFunction (ts_fqn (f_name f)) (f_location f) []
  | SConst k => i = SymbolInformation IConstant (ts_fqn (k_name k)) (k_location k) []
  | SDefine d => i = SymbolInformation IConstant (ts_fqn (d_name d)) (d_location d) []
  | SClassConst c => i = SymbolInformation IConstant (cc_name c) (cc_location c) (ts_fqn (cc_scope c))
  | SMethod m => i = SymbolInformation IMethod (m_name m) (m_location m) (ts_fqn (m_scope m))
  | SProperty p => i = SymbolInformation IProperty (pr_name p) (pr_location p) (ts_fqn (pr_scope p))
  | SGlobalVariable _ => False
  end.
(** a folder of the workspace: what was indexed, and the index *)
Definition folder {T : Text} {X : XorFilter} (f : gostr * list event * store) : Prop :=
  let '(root, h, st) := f in
  Forall event_ok h /\ run root h = Some st /\ clean_names h /\ plain_uris h /\ no_shared_constants h.
