(** analysis: what expressions are resolved with, from the store.

    Every lookup asks a fresh query: that a query that has collected members
    before may answer differently is C37_repeated_query_refuted.  [fuel] bounds the
    collection of members, which does not end for the properties of a class
    that extends itself (C36_terminates_refuted); such an answer is empty here. *)
From Coq Require Import String.
From Coq Require Import List Bool Arith ZArith.
From Coq.Strings Require Import Byte.
From Verif Require Import Base.Bytes Base.Protocol Symbols.Symbols Symbols.KeysModel Store.FilterModel Store.StoreModel
  Query.QueryModel Query.QueryStoreModel Expr.ExprModel.
Import ListNotations.
Open Scope list_scope.

Section StoreLookups.
Context {T : Text} {X : XorFilter}.
Variables (st : store) (fuel : nat).

Definition collected {M} (o : option (query M * inherited M)) : list (inherited M) :=
  match o with Some (_, r) => [r] | None => [] end.
(** q.GetClasses(fqn) and q.GetClassMethods(class, name, nil), methodAccess.go:58-59 *)
Definition class_methods (fqn name : gostr) : list (inherited method) :=
  flat_map (fun c => collected (GetClassMethods (method_db st) fuel NewQuery c name None)) (answer (Query_GetClasses st fqn)).
(** q.GetInterfaces(fqn) and q.GetInterfaceMethods(intf, name, nil), methodAccess.go:63-64 *)
Definition interface_methods (fqn name : gostr) : list (inherited method) :=
  flat_map (fun i => collected (GetInterfaceMethods (method_db st) fuel NewQuery i name None)) (answer (GetInterfaces st fqn)).
(** q.GetClassProps(class, name, nil), propertyAccess.go:48-49 *)
Definition class_props (fqn name : gostr) : list (inherited property) :=
  flat_map (fun c => collected (GetClassProps (prop_db st) fuel NewQuery c name None)) (answer (Query_GetClasses st fqn)).

(** methodAccess.go:58-67, the methods of one scope type *)
Definition accessed_methods (currentClass : gostr) (ac : access) (fqn name : gostr) : list (with_scope method) :=
  flat_map (fun r => ReduceAccess r currentClass ac) (class_methods fqn name ++ interface_methods fqn name).
(** scopedMethodAccess.go:62-71 *)
Definition accessed_static_methods (currentClass : gostr) (ac : access) (fqn name : gostr) : list (with_scope method) :=
  flat_map (fun r => ReduceStatic r currentClass ac) (class_methods fqn name ++ interface_methods fqn name).
(** propertyAccess.go:48-52 *)
Definition accessed_props (currentClass : gostr) (ac : access) (fqn name : gostr) : list (with_scope property) :=
  flat_map (fun r => ReduceAccess r currentClass ac) (class_props fqn (B "$" ++ name)).
(** scopedPropertyAccess.go:54-58 *)
Definition accessed_static_props (currentClass : gostr) (ac : access) (fqn name : gostr) : list (with_scope property) :=
  flat_map (fun r => ReduceStatic r currentClass ac) (class_props fqn name).

(** [functions name] is document.currImportTable().GetFunctionReferenceFQN, functionCall.go:82 *)
Definition store_lookups (functions : gostr -> gostr) (class_at : position -> gostr) : lookups :=
  Lookups
    (fun name => map g_types (answer (GetGlobalVariables st name)))
    (fun name => map f_return (answer (GetFunctions st (functions name))))
    class_at
    (fun m currentClass ac fqn name =>
       match m with
       | MMethod => map (fun x => m_return (ws_member x)) (accessed_methods currentClass ac fqn name)
       | MStaticMethod => map (fun x => m_return (ws_member x)) (accessed_static_methods currentClass ac fqn name)
       | MProperty => map (fun x => pr_types (ws_member x)) (accessed_props currentClass ac fqn name)
       | MStaticProperty => map (fun x => pr_types (ws_member x)) (accessed_static_props currentClass ac fqn name)
       end).
End StoreLookups.
