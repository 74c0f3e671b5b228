(** "Go to definition": internal/lsp/definition.go. *)
From Coq Require Import String.
From Coq Require Import List Bool ZArith.
From Coq.Strings Require Import Byte.
From Verif Require Import Base.Bytes Base.Protocol Symbols.Symbols Symbols.KeysModel Text.TextModel Text.PositionModel Types.TypesModel
  Types.ImportModel Rpc.StreamModel Analyse.SyntaxModel Analyse.AnalyseModel Analyse.RefModel
  Storage.KvModel Store.FilterModel Store.StoreModel Query.QueryModel Query.QueryStoreModel Whole.CursorModel.
Import ListNotations.
Open Scope list_scope.
Open Scope nat_scope.

(** util/uri.go:106-111 *)
Definition IsURINavigatable (uri : gostr) : bool := has_prefix (B "file://") uri.

Section Handler.
Context {TX : Text} {X : XorFilter}.
(** "for _, x := range ... { locations = append(locations, x.GetLocation()) }" *)
Definition locations {A} (place : A -> location) (found : option (list A)) : option (list location) := option_map (map place) found.

(** query.go:43-47 GetClassConstructor and definition.go:32-37. [None]: out of fuel *)
Definition constructor_or_class (fuel : nat) (st : store) (q : QueryModel.query method) (theClass : class) : option (QueryModel.query method * location) :=
  match GetClassMethods (method_db st) fuel q theClass (B "__construct") None with
  | None => None
  | Some (q, r) =>
      Some (q, match ReduceFirst r with
               | None => c_location theClass
               | Some x => if str_eqb (ts_fqn (m_scope (ws_member x))) (ts_fqn (Symbols.c_name theClass)) then m_location (ws_member x) else c_location theClass
               end)
  end.
Fixpoint constructors_or_classes (fuel : nat) (st : store) (q : QueryModel.query method) (cs : list class) : option (QueryModel.query method * list location) :=
  match cs with
  | [] => Some (q, [])
  | c :: cs =>
      match constructor_or_class fuel st q c with
      | None => None
      | Some (q, loc) => match constructors_or_classes fuel st q cs with Some (q, locs) => Some (q, loc :: locs) | None => None end
      end
  end.
(** definition.go:29-39 *)
Fixpoint designated (fuel : nat) (st : store) (table : ImportTable) (q : QueryModel.query method) (types : type_composite) : option (list location) :=
  match types with
  | [] => Some []
  | t :: types =>
      match Query_GetClasses st (fst (GetClassReferenceFQN table t)) with
      | None => None
      | Some cs => match constructors_or_classes fuel st q cs with
                   | None => None
                   | Some (q, locs) => option_map (fun more => locs ++ more) (designated fuel st table q types)
                   end
      end
  end.
(** q.GetFunctions(fqn), q.GetConsts(fqn), q.GetDefines(fqn) are not empty (importTable.go:103, 125, 129) *)
Definition any {A} (found : option (list A)) : bool := match found with Some (_ :: _) => true | _ => false end.
(** definition.go:27-163 definition, for a document with the analysis [s]. The
    import table is looked up once (Go: in each round). That GetClassReferenceFQN
    marks an import as used is left out. [None]: a panic, out of fuel, or a use of
    a class member, which is not modelled (definition.go:68-139). *)
Definition definition (fuel : nat) (st : store) (s : state) (pos : position) : option (list location) :=
  option_map (List.filter (fun loc => IsURINavigatable (l_uri loc)))
    (match HasTypesAtPos (st_out s) pos with
     | None => Some []
     | Some a =>
         let types := a_types a in
         match ImportTableAtPos (st_imports s) pos with
         | None => None
         | Some table =>
             match a_kind a with
             | AClassTypeDesignator => designated fuel st table NewQuery types
             | AClassAccess => concat_opt (map (fun t => locations c_location (Query_GetClasses st (fst (GetClassReferenceFQN table t)))) types)
             | AInterfaceAccess => concat_opt (map (fun t => locations i_location (GetInterfaces st (fst (GetClassReferenceFQN table t)))) types)
             | ATraitAccess => concat_opt (map (fun t => locations t_location (GetTraits st (ts_fqn t))) types)
             | AConstantAccess =>
                 match NewTypeString (ts_original (a_name a)) with
                 | None => None
                 | Some name =>
                     let fqn := GetConstReferenceFQN (fun f => any (GetConsts st f)) (fun f => any (GetDefines st f)) table name in
                     concat_opt [locations k_location (GetConsts st fqn); locations d_location (GetDefines st fqn)]
                 end
             | AFunctionCall =>
                 match NewTypeString (ts_original (a_name a)) with
                 | None => None
                 | Some name => locations f_location (GetFunctions st (GetFunctionReferenceFQN (fun f => any (GetFunctions st f)) table name))
                 end
             | ATypeDeclaration =>
                 concat_opt (flat_map (fun t => [locations c_location (Query_GetClasses st (ts_fqn t)); locations i_location (GetInterfaces st (ts_fqn t))]) types)
             | AScopedConstantAccess | AScopedMethodAccess | AScopedPropertyAccess | APropertyAccess | AMethodAccess => None
             | _ => Some []
             end
         end
     end).
End Handler.
