(** The members an access like [$x->name] or [X::name] leads to:
    internal/lsp/definition.go:71-144. *)
From Coq Require Import String.
From Coq Require Import List Bool ZArith.
From Coq.Strings Require Import Byte.
From Verif Require Import Base.Bytes Base.Protocol Symbols.Symbols Symbols.KeysModel Store.FilterModel Store.StoreModel
  Query.QueryModel Query.QueryStoreModel Whole.DefinitionModel.
Import ListNotations.
Open Scope list_scope.

Section Members.
Context {T : Text} {M : Type} {MM : Member M}.

(** [for _, x := range l { ms.Merge(get(x, name, ms.SearchedFQNs)) }]; [None]: out of fuel *)
Fixpoint each {A} (get : query M -> A -> option nat -> option (query M * inherited M)) (q : query M) (ms : inherited M) (l : list A)
  : option (query M * inherited M) :=
  match l with
  | [] => Some (q, ms)
  | x :: l =>
      match get q x (Some (ih_searched ms)) with
      | None => None
      | Some (q, other) => let '(q, ms) := Merge q ms other in each get q ms l
      end
  end.

(** query.go:142-160 MergeMethodWithScope, 554-572 MergeClassConstWithScope,
    775-793 MergePropWithScope: every scope is serialisable *)
Definition scope_key (s : scope_symbol) : gostr :=
  match s with ScClass c => GetKey (SClass c) | ScInterface i => GetKey (SInterface i) | ScTrait t => GetKey (STrait t) end.
Definition merge_key (x : with_scope M) : gostr := scope_key (ws_scope x) ++ B "::" ++ mb_name (ws_member x).
Fixpoint merge_from (duplicated : list gostr) (items : list (with_scope M)) : list (with_scope M) :=
  match items with
  | [] => []
  | x :: items =>
      if set_mem (merge_key x) duplicated then merge_from duplicated items
      else x :: merge_from (merge_key x :: duplicated) items
  end.
Definition MergeWithScope (a b : list (with_scope M)) : list (with_scope M) := merge_from [] (a ++ b).

(** query.go:500-537 SearchClassMethods and SearchInterfaceMethods, 720-757 the
    same for constants, 959-996 for properties: [found] is what the member
    function of the same kind returned for all names.  [score keyword name] is
    the score that isMatch (completionIndex.go:30-34, fzf's FuzzyMatchV2) gives
    the name for the keyword in lower case.  The members that match are
    written to the front of the slice that also is in the cache, so there they
    replace the first ones. *)
Section Search.
Variables (score : gostr -> gostr -> Z) (keyword : gostr).
Definition matches (x : with_scope M) : bool := (0 <? score keyword (mb_name (ws_member x)))%Z.
Definition kept (l : list (with_scope M)) : list (with_scope M) :=
  map (fun x => WithScope (ws_member x) (ws_scope x) (score keyword (mb_name (ws_member x)))) (List.filter matches l).
Definition overwritten (l : list (with_scope M)) : list (with_scope M) := kept l ++ skipn (length (kept l)) l.
Definition Search (put : query M -> inherited M -> query M) (found : option (query M * inherited M)) : option (query M * inherited M) :=
  match found with
  | None => None
  | Some (q, r) =>
      match keyword with
      | [] => Some (q, r)
      | _ => Some (put q (Inherited (overwritten (ih_members r)) (ih_relations r) (ih_searched r)),
                   Inherited (kept (ih_members r)) (ih_relations r) (ih_searched r))
      end
  end.
Definition put_class (name : gostr) (c : class) (q : query M) (i : inherited M) : query M :=
  Query ((ts_fqn (c_name c), name, i) :: q_class_cache q) (q_interface_cache q) (q_trait_cache q) (q_maps q).
Definition put_interface (name : gostr) (c : interface) (q : query M) (i : inherited M) : query M :=
  Query (q_class_cache q) ((ts_fqn (i_name c), name, i) :: q_interface_cache q) (q_trait_cache q) (q_maps q).
End Search.

(** One round of the loop over the types of the receiver, for example
    definition.go:129-139; which kinds of class-likes are looked at differs *)
Variables (get_class : query M -> class -> option nat -> option (query M * inherited M))
          (get_interface : query M -> interface -> option nat -> option (query M * inherited M))
          (get_trait : query M -> trait -> option nat -> option (query M * inherited M)).
Definition of_type (q : query M) (cs : list class) (is : list interface) (ts : list trait) : option (query M * inherited M) :=
  let '(a, q) := alloc q in
  match each get_class q (Inherited [] [] a) cs with
  | None => None
  | Some (q, ms) =>
      match each get_interface q ms is with
      | None => None
      | Some (q, ms) => each get_trait q ms ts
      end
  end.
Variables (db : database M) (interfaces traits : bool) (choose : inherited M -> list (with_scope M)).
Fixpoint of_types (q : query M) (found : list (with_scope M)) (types : list type_string) : option (query M * list (with_scope M)) :=
  match types with
  | [] => Some (q, found)
  | t :: types =>
      match of_type q (db_classes db (ts_fqn t)) (if interfaces then db_interfaces db (ts_fqn t) else [])
              (if traits then db_traits db (ts_fqn t) else []) with
      | None => None
      | Some (q, ms) => of_types q (MergeWithScope found (choose ms)) types
      end
  end.
End Members.

Section Handlers.
Context {T : Text} {X : XorFilter}.
Variables (st : store) (fuel : nat).
Definition get_method (name : gostr) := fun (q : query method) c s => GetClassMethods (method_db st) fuel q c name s.
Definition get_interface_method (name : gostr) := fun (q : query method) i s => GetInterfaceMethods (method_db st) fuel q i name s.
(** the trait's methods are collected without the map *)
Definition get_trait_method (name : gostr) := fun (q : query method) t (_ : option nat) => Some (GetTraitMembers (method_db st) q t name).
Definition get_const (name : gostr) := fun (q : query class_const) c s => GetClassClassConsts (const_db st) fuel q c name s.
Definition get_interface_const (name : gostr) := fun (q : query class_const) i s => GetInterfaceClassConsts (const_db st) fuel q i name s.
Definition get_prop (name : gostr) := fun (q : query property) c s => GetClassProps (prop_db st) fuel q c name s.
Definition no_interfaces {M} := fun (q : query M) (_ : interface) (_ : option nat) => @None (query M * inherited M).
Definition no_traits {M} := fun (q : query M) (_ : trait) (_ : option nat) => @None (query M * inherited M).

(** Of an access: the class around it, the name and the types its scope is
    given, and in [types] the types the scope is resolved to (C83).
    definition.go:126-144 case MethodAccess *)
Definition MethodAccess_members (q : query method) (cur : gostr) (ac : access) (name : gostr) (types : list type_string) :=
  of_types (get_method name) (get_interface_method name) (get_trait_method name) (method_db st) true true
    (fun ms => ReduceAccess ms cur ac) q [] types.
(** definition.go:87-99 case ScopedMethodAccess *)
Definition ScopedMethodAccess_members (q : query method) (cur : gostr) (ac : access) (name : gostr) (types : list type_string) :=
  of_types (get_method name) no_interfaces no_traits (method_db st) false false (fun ms => ReduceStatic ms cur ac) q [] types.
(** definition.go:113-125 case PropertyAccess *)
Definition PropertyAccess_members (q : query property) (cur : gostr) (ac : access) (name : gostr) (types : list type_string) :=
  of_types (get_prop (B "$" ++ name)) no_interfaces no_traits (prop_db st) false false (fun ps => ReduceAccess ps cur ac) q [] types.
(** definition.go:100-112 case ScopedPropertyAccess *)
Definition ScopedPropertyAccess_members (q : query property) (cur : gostr) (ac : access) (name : gostr) (types : list type_string) :=
  of_types (get_prop name) no_interfaces no_traits (prop_db st) false false (fun ps => ReduceStatic ps cur ac) q [] types.
(** definition.go:71-86 case ScopedConstantAccess *)
Definition ScopedConstantAccess_members (q : query class_const) (cur : gostr) (ac : access) (name : gostr) (types : list type_string) :=
  of_types (get_const name) (get_interface_const name) no_traits (const_db st) true false (fun ccs => ReduceStatic ccs cur ac) q [] types.

(** definition.go:141-143 and 157-163: the locations of what was found *)
Definition led_to {M} (place : M -> location) (found : option (query M * list (with_scope M))) : option (list location) :=
  option_map (fun r => List.filter (fun loc => IsURINavigatable (l_uri loc)) (map (fun x => place (ws_member x)) (snd r))) found.
Definition MethodAccess_definition q cur ac name types := led_to m_location (MethodAccess_members q cur ac name types).
Definition ScopedMethodAccess_definition q cur ac name types := led_to m_location (ScopedMethodAccess_members q cur ac name types).
Definition PropertyAccess_definition q cur ac name types := led_to pr_location (PropertyAccess_members q cur ac name types).
Definition ScopedPropertyAccess_definition q cur ac name types := led_to pr_location (ScopedPropertyAccess_members q cur ac name types).
Definition ScopedConstantAccess_definition q cur ac name types := led_to cc_location (ScopedConstantAccess_members q cur ac name types).
End Handlers.
