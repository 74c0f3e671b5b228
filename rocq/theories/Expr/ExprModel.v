(** analysis: the types of expressions.

    The analysis of a file leaves objects behind that refer to each other
    through their field Scope (variable.go, methodAccess.go, ...).  Their
    types are found on request: Resolve fills the field Type in, once for each
    object, and GetTypes reads the types off.  The objects belong to the
    document and outlive the request.

    Here an object is its place in a list, in the order of building.  The
    store is a record of the answers it gives ([lookups]); the answers from a
    store are in Expr/ExprStoreModel.v.  A type composite is a list and not a Go slice: slices
    that share their array are not modelled, nor are two requests that
    resolve the same object at the same time. *)
From Coq Require Import String.
From Coq Require Import List Bool Arith ZArith.
From Coq.Strings Require Import Byte.
From Verif Require Import Base.Bytes Base.Protocol Symbols.Symbols Symbols.KeysModel Types.TypesModel Query.QueryModel.
Import ListNotations.
Open Scope list_scope.

(** methodAccess.go, propertyAccess.go, scopedMethodAccess.go, scopedPropertyAccess.go *)
Inductive member_kind := MMethod | MProperty | MStaticMethod | MStaticProperty.

(** The kinds of objects with types:
    [KPlain]: those whose types are known when they are built and whose
      Resolve does nothing: RelativeScope (relativeScope.go:5-8, 68-74),
      ClassTypeDesignator (classTypeDesignator.go), ConstantAccess
      (constantAccess.go), ScopedConstantAccess (scopedConstantAccess.go)
    [KVariable]: variable.go:11-16
    [KCall]: functionCall.go:12-15
    [KClassAccess]: classAccess.go:9-13, what stands before ::
    [KDerived]: expression.go:107-111, parentheses and clone
    [KForeach]: foreach.go:9-12
    [KMember]: a member access *)
Inductive kind := KPlain | KVariable | KCall | KClassAccess | KDerived | KForeach | KMember (m : member_kind).

(** expression.go:10-15 Expression, with canReferenceGlobal of a variable, the
    flag hasResolved (isResolved of a ClassAccess), and of the location only
    the start; [o_scope] is the object Scope points to *)
Record obj := Obj {
  o_kind : kind; o_name : gostr; o_at : position; o_types : type_composite;
  o_scope : option nat; o_global : bool; o_resolved : bool }.
Definition heap := list obj.

(** What the objects are resolved with (expression.go:18-21 ResolveContext):
    [lk_globals name]: the types of q.GetGlobalVariables(name)
    [lk_functions name]: the returnTypes of q.GetFunctions(...), functionCall.go:81-83
    [lk_class_at]: GetClassScopeAtSymbol, by the start of the symbol (document.go:397-413)
    [lk_members m currentClass access fqn name]: the types of the members called
      name that the loop of Resolve comes by for the scope type fqn: methodAccess.go:58-67,
      propertyAccess.go:48-52, scopedMethodAccess.go:62-71, scopedPropertyAccess.go:54-58 *)
Record lookups := Lookups {
  lk_globals : gostr -> list type_composite;
  lk_functions : gostr -> list type_composite;
  lk_class_at : position -> gostr;
  lk_members : member_kind -> gostr -> access -> gostr -> gostr -> list type_composite }.

(** for _, x := range xs { s.Type.merge(x) } *)
Definition merge_all (t : type_composite) (xs : list type_composite) : type_composite := fold_left tc_merge xs t.

(** relativeScope.go:18-28; [scope] is scope.GetTypes() *)
Definition resolveMemberTypes (types scope : type_composite) : type_composite :=
  fold_left (fun newTypes t =>
    if str_eqb (ts_original t) (B "static") || str_eqb (ts_original t) (B "$this")
    then tc_mergeWithArrayLevel newTypes scope (ts_array t)
    else tc_add newTypes t) types [].

(** foreach.go:78, 82-88 *)
Definition dearray_all (types : type_composite) : type_composite :=
  fold_left (fun ts t => let (t', ok) := Dearray t in if ok then tc_add ts t' else ts) types [].

(** GetTypes: variable.go:86-95, functionCall.go:88-90, classAccess.go:72-74,
    expression.go:153-158, foreach.go:77-89, methodAccess.go:72-74 and the
    other accesses.  [None]: the fuel does not suffice, or there is no such object *)
Fixpoint GetTypes (fuel : nat) (h : heap) (i : nat) : option type_composite :=
  match fuel with
  | O => None
  | S fuel =>
      match nth_error h i with
      | None => None
      | Some o =>
          match o_kind o with
          | KVariable =>
              match o_scope o with
              | None => Some (o_types o)
              | Some s => option_map (fun types => tc_merge types (o_types o)) (GetTypes fuel h s)
              end
          | KDerived =>
              match o_scope o with
              | None => Some (o_types o)
              | Some s => GetTypes fuel h s
              end
          | KForeach =>
              match o_scope o with
              | None => Some []
              | Some s => option_map dearray_all (GetTypes fuel h s)
              end
          | _ => Some (o_types o)
          end
      end
  end.

Fixpoint set_nth {A} (l : list A) (i : nat) (x : A) : list A :=
  match l, i with
  | [], _ => []
  | _ :: l, O => x :: l
  | y :: l, S i => y :: set_nth l i x
  end.
(** s.hasResolved = true; s.Type = types *)
Definition resolved_with (o : obj) (types : type_composite) : obj :=
  Obj (o_kind o) (o_name o) (o_at o) types (o_scope o) (o_global o) true.

(** memberAccess.go:52-58 ScopeName: of the objects that can be a scope only
    variables and class accesses have a method GetName *)
Definition ScopeName (o : obj) : gostr :=
  match o_kind o with KVariable | KClassAccess => o_name o | _ => [] end.

(** the loops methodAccess.go:57-68, propertyAccess.go:47-53,
    scopedMethodAccess.go:61-72 and scopedPropertyAccess.go:53-59; [types] are the types
    of the scope, [scope] the object *)
Definition member_types (L : lookups) (m : member_kind) (name : gostr) (scope : obj) (types own : type_composite) : type_composite :=
  let currentClass := lk_class_at L (o_at scope) in
  let ac := Access (ScopeName scope) types in
  fold_left (fun own scopeType =>
    merge_all own (map (fun found => match m with
                                     | MMethod | MStaticMethod => resolveMemberTypes found types
                                     | MProperty | MStaticProperty => found
                                     end) (lk_members L m currentClass ac (ts_fqn scopeType) name)))
    types own.

(** s.hasResolved = true before the loop, scopedMethodAccess.go:58 and scopedPropertyAccess.go:51 *)
Definition mark_first (m : member_kind) (h : heap) (i : nat) (o : obj) : heap :=
  match m with
  | MMethod | MProperty => h
  | MStaticMethod | MStaticProperty => set_nth h i (resolved_with o (o_types o))
  end.

(** Resolve: variable.go:69-84, functionCall.go:74-86, classAccess.go:64-70,
    expression.go:28-30, 160-168, foreach.go:91-96, methodAccess.go:51-70,
    propertyAccess.go:41-55, scopedMethodAccess.go:54-73,
    scopedPropertyAccess.go:46-60.  MethodAccess and PropertyAccess set their
    flag at the end, the others at the beginning. *)
Fixpoint Resolve (fuel : nat) (L : lookups) (h : heap) (i : nat) : option heap :=
  match fuel with
  | O => None
  | S fuel =>
      match nth_error h i with
      | None => None
      | Some o =>
          match o_kind o with
          | KPlain => Some h
          | KForeach => match o_scope o with None => Some h | Some s => Resolve fuel L h s end
          | KVariable =>
              if o_resolved o then Some h
              else let h := set_nth h i (resolved_with o (if o_global o then merge_all (o_types o) (lk_globals L (o_name o)) else o_types o)) in
                   match o_scope o with None => Some h | Some s => Resolve fuel L h s end
          | KCall =>
              if o_resolved o then Some h
              else Some (set_nth h i (resolved_with o (merge_all (o_types o) (lk_functions L (o_name o)))))
          | KDerived =>
              if o_resolved o then Some h
              else let h := set_nth h i (resolved_with o (o_types o)) in
                   match o_scope o with None => Some h | Some s => Resolve fuel L h s end
          | KClassAccess =>
              if o_resolved o then Some h
              else let h := set_nth h i (resolved_with o (o_types o)) in
                   match o_scope o with
                   | None => Some h
                   | Some s =>
                       match Resolve fuel L h s with
                       | None => None
                       | Some h => match GetTypes fuel h s with
                                   | None => None
                                   | Some types => Some (set_nth h i (resolved_with o (tc_merge (o_types o) types)))
                                   end
                       end
                   end
          | KMember m =>
              if o_resolved o then Some h
              else let h := mark_first m h i o in
                   match o_scope o with
                   | None => Some (set_nth h i (resolved_with o (o_types o)))
                   | Some s =>
                       match Resolve fuel L h s with
                       | None => None
                       | Some h => match GetTypes fuel h s, nth_error h s with
                                   | Some types, Some scope =>
                                       Some (set_nth h i (resolved_with o (member_types L m (o_name o) scope types (o_types o))))
                                   | _, _ => None
                                   end
                       end
                   end
          end
      end
  end.

(** expression.go:32-38 and the callers: Resolve and then GetTypes.  The Go
    code recurses without bound; the number of objects suffices as fuel
    (C83_always_answered). *)
Definition ask (L : lookups) (h : heap) (i : nat) : option (heap * type_composite) :=
  match Resolve (S (length h)) L h i with
  | None => None
  | Some h => option_map (fun types => (h, types)) (GetTypes (S (length h)) h i)
  end.

(** ** Building the objects *)
(** variable.go:53-61 mergeTypesWithVariable for the variables [earlier] in
    turn: (Type, Scope) of the variable *)
Fixpoint merge_earlier (h : heap) (earlier : list nat) (types : type_composite) (scope : option nat)
  : option (type_composite * option nat) :=
  match earlier with
  | [] => Some (types, scope)
  | v :: earlier =>
      match GetTypes (S (length h)) h v, nth_error h v with
      | Some found, Some o =>
          merge_earlier h earlier (tc_merge types found) (match scope with None => o_scope o | Some _ => scope end)
      | _, _ => None
      end
  end.

(** What the analysis does to the objects.
    [NewObject]: newFunctionCall (functionCall.go:42), newClassAccess
      (classAccess.go:17), newDerivedExpression (expression.go:116),
      newForeachCollection (foreach.go:34), newMethodAccess, newPropertyAccess,
      newScopedMethodAccess, newScopedPropertyAccess, and the objects of kind
      [KPlain]; a derived expression and a class access are built before what
      they refer to in Go, and nothing refers to them until they are complete.
    [NewVariable name at doc this earlier global value]: a variable that is
      used, declared or assigned to (variable.go:22-43, assignment.go:53-71,
      foreach.go:59-61, anonymousFunction.go:94-102, parameter.go:86-97,
      globalVariable.go:57), when it is complete.  [doc] are the types of its
      PHPDoc, of the parameter or of the global variable, [this] the types of
      the relative scope of $this, [earlier] the variables the tables return
      for its name (document.go:345: one or none; a captured variable may get
      a second one, anonymousFunction.go:99; none for parameters), [global]
      the condition document.go:349, [value] what it is assigned or iterates
      over. *)
Inductive op :=
| NewObject (k : kind) (name : gostr) (at_ : position) (types : type_composite) (scope : option nat)
| NewVariable (name : gostr) (at_ : position) (doc this : type_composite) (earlier : list nat) (global : bool) (value : option nat).

Definition build (h : heap) (c : op) : option heap :=
  match c with
  | NewObject k name at_ types scope => Some (h ++ [Obj k name at_ types scope false false])
  | NewVariable name at_ doc this earlier global value =>
      (* variable.go:39-41 *)
      let '(h, scope) := if str_eqb name (B "$this") then (h ++ [Obj KPlain [] at_ this None false false], Some (length h))
                         else (h, None) in
      match merge_earlier h earlier doc scope with
      | None => None
      | Some (types, scope) =>
          Some (h ++ [Obj KVariable name at_ types (match value with Some e => Some e | None => scope end) global false])
      end
  end.
Fixpoint build_all (h : heap) (cs : list op) : option heap :=
  match cs with
  | [] => Some h
  | c :: cs => match build h c with None => None | Some h => build_all h cs end
  end.
