(** The functions whose parameters are shown while the arguments of a call are
    written: the ResolveToHasParams methods of analysis. *)
From Coq Require Import String.
From Coq Require Import List Bool ZArith.
From Coq.Strings Require Import Byte.
From Verif Require Import Base.Bytes Base.Protocol Symbols.Symbols Symbols.KeysModel Store.FilterModel Store.StoreModel
  Types.TypesModel Types.ImportModel Query.QueryModel Query.QueryStoreModel Whole.DefinitionModel Members.MemberModel Ide.ArgumentModel.
Import ListNotations.
Open Scope list_scope.

Section Collect.
Context {M : Type}.
Variable choose : inherited M -> list (with_scope M).
(** [for _, x := range l { found = append(found, choose(get(x, name, nil))...) }]; [None]: out of fuel *)
Fixpoint append_each {A} (get : query M -> A -> option nat -> option (query M * inherited M)) (q : query M) (found : list (with_scope M)) (l : list A)
  : option (query M * list (with_scope M)) :=
  match l with
  | [] => Some (q, found)
  | x :: l =>
      match get q x None with
      | None => None
      | Some (q, r) => append_each get q (found ++ choose r) l
      end
  end.
Variables (get_class : query M -> class -> option nat -> option (query M * inherited M))
          (get_interface : query M -> interface -> option nat -> option (query M * inherited M))
          (db : database M) (interfaces : bool).
(** the loop over the types: methodAccess.go:81-92, scopedMethodAccess.go:83-94,
    classTypeDesignator.go:84-91 (without interfaces) *)
Fixpoint append_types (q : query M) (found : list (with_scope M)) (types : list type_string) : option (query M * list (with_scope M)) :=
  match types with
  | [] => Some (q, found)
  | t :: types =>
      match append_each get_class q found (db_classes db (ts_fqn t)) with
      | None => None
      | Some (q, found) =>
          match append_each get_interface q found (if interfaces then db_interfaces db (ts_fqn t) else []) with
          | None => None
          | Some (q, found) => append_types q found types
          end
      end
  end.
End Collect.

Section Handlers.
Context {T : Text} {X : XorFilter}.
Variables (st : store) (fuel : nat).
(** methodAccess.go:76-94; [types]: the types the scope is resolved to (C83) *)
Definition MethodAccess_called (q : query method) (cur : gostr) (ac : access) (name : gostr) (types : list type_string) :=
  append_types (fun ms => ReduceAccess ms cur ac) (get_method st fuel name) (get_interface_method st fuel name) (method_db st) true q [] types.
(** scopedMethodAccess.go:79-96 *)
Definition ScopedMethodAccess_called (q : query method) (cur : gostr) (ac : access) (name : gostr) (types : list type_string) :=
  append_types (fun ms => ReduceStatic ms cur ac) (get_method st fuel name) (get_interface_method st fuel name) (method_db st) true q [] types.
(** classTypeDesignator.go:81-93 and query.go:43-47 GetClassConstructor; [types]: the types of the designator *)
Definition constructor (ms : inherited method) : list (with_scope method) := match ReduceFirst ms with Some x => [x] | None => [] end.
Definition ClassTypeDesignator_called (q : query method) (types : list type_string) :=
  append_types constructor (get_method st fuel (B "__construct")) no_interfaces (method_db st) false q [] types.

(** signature.go:39-45: the signatures of the methods found *)
Definition signatures (found : option (query method * list (with_scope method))) : option (list signature) :=
  option_map (fun r => map (fun x => hasParamToSignatureInformation (method_GetNameLabel (ws_member x)) (m_params (ws_member x))) (snd r)) found.
Definition MethodAccess_signatures q cur ac name types := signatures (MethodAccess_called q cur ac name types).
Definition ScopedMethodAccess_signatures q cur ac name types := signatures (ScopedMethodAccess_called q cur ac name types).
Definition ClassTypeDesignator_signatures q types := signatures (ClassTypeDesignator_called q types).

(** functionCall.go:92-103 and define.go:98-108 (there the name is [\define]):
    [table] is the import table of the last namespace of the document
    (document.currImportTable); [None]: a panic.  That the name is looked up
    again through the query's cache is left out. *)
Definition FunctionCall_called (table : ImportTable) (name : gostr) : option (list function) :=
  match NewTypeString name with
  | None => None
  | Some name => GetFunctions st (GetFunctionReferenceFQN (fun f => any (GetFunctions st f)) table name)
  end.
Definition FunctionCall_signatures (table : ImportTable) (name : gostr) : option (list signature) :=
  option_map (map (fun f => hasParamToSignatureInformation (function_GetNameLabel f) (f_params f))) (FunctionCall_called table name).
End Handlers.
