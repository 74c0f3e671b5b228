(** analysis/query.go: collecting the members of a class-like and deciding
    which of them an expression can access.

    The store is the record [db] of the answers it gives; the store's own
    model is Store/StoreModel.v.  The caches "Classes", "Interfaces",
    "Methods", "ClassConst" and "Props" only repeat an answer of the store
    and are left out (a query does not outlive a request, query.go:16).  The
    caches of collected members are modelled, because the collections share
    their maps of searched names: such a Go map is an address in the list
    [q_maps] of maps.  Methods, class constants and properties have copies of
    the same code in Go; here the code is polymorphic in the member type
    [M]. *)
From Coq Require Import String.
From Coq Require Import List Bool Arith ZArith.
From Coq.Strings Require Import Byte.
From Verif Require Import Base.Bytes Base.Protocol Symbols.Symbols Symbols.KeysModel.
Import ListNotations.
Open Scope list_scope.

(** symbol.go:80-86 MemberSymbol, and the member's name *)
Class Member (M : Type) := {
  mb_name : M -> gostr;
  mb_scope : M -> gostr;          (* ScopeTypeString().GetFQN() *)
  mb_visibility : M -> Z;
  mb_static : M -> bool }.
(** method.go:279-291, classConst.go:175-187, property.go:195-207 *)
#[export] Instance method_member : Member method :=
  {| mb_name := m_name; mb_scope := fun m => ts_fqn (m_scope m); mb_visibility := m_visibility; mb_static := m_static |}.
#[export] Instance const_member : Member class_const :=
  {| mb_name := cc_name; mb_scope := fun c => ts_fqn (cc_scope c); mb_visibility := cc_visibility; mb_static := fun _ => true |}.
#[export] Instance prop_member : Member property :=
  {| mb_name := pr_name; mb_scope := fun p => ts_fqn (pr_scope p); mb_visibility := pr_visibility; mb_static := pr_static |}.

(** the symbol a member was found in (field Scope of query.go:126-130, 521, 764) *)
Inductive scope_symbol := ScClass (c : class) | ScInterface (i : interface) | ScTrait (t : trait).

Definition set_mem (x : gostr) (s : list gostr) : bool := existsb (str_eqb x) s.
Definition set_add (x : gostr) (s : list gostr) : list gostr := if set_mem x s then s else x :: s.

(** query.go:160-208 Relations and RelationMap: the pairs related *)
Definition relation_map := list (gostr * gostr).
Definition IsRelated (r : relation_map) (this other : gostr) : bool :=
  existsb (fun p => str_eqb (fst p) this && str_eqb (snd p) other) r.

Section Query.
Context {M : Type} {MM : Member M}.

(** query.go:126-130 MethodWithScope, 521-525, 764-768 *)
Record with_scope := WithScope { ws_member : M; ws_scope : scope_symbol; ws_score : Z }.
(** query.go:132-138, 527-533, 770-776 *)
Definition with_scope_from (scope : scope_symbol) (ms : list M) : list with_scope :=
  map (fun m => WithScope m scope 0%Z) ms.

(** query.go:278-282, 554-558, 797-801; [ih_searched] is the address of the map *)
Record inherited := Inherited {
  ih_members : list with_scope; ih_relations : relation_map; ih_searched : nat }.

(** what the store answers; [db_members scope name] are q.GetMethods,
    q.GetClassConsts and q.GetProps (query.go:376-391, 608-623, 866-881),
    [db_classes] is q.GetClasses *)
Record database := Db {
  db_classes : gostr -> list class;
  db_interfaces : gostr -> list interface;
  db_traits : gostr -> list trait;
  db_members : gostr -> gostr -> list M }.

(** query.go:11-14 Query: its caches of collected members ("ClassMethods",
    "InterfaceMethods", "TraitMethods" and the corresponding ones of the other
    member types), by FQN and name *)
Definition cache := list (gostr * gostr * inherited).
Record query := Query {
  q_class_cache : cache; q_interface_cache : cache; q_trait_cache : cache;
  q_maps : list (list gostr) }.
(** query.go:17-22 *)
Definition NewQuery : query := Query [] [] [] [].

Fixpoint cache_get (c : cache) (fqn name : gostr) : option inherited :=
  match c with
  | [] => None
  | (f, n, i) :: c => if str_eqb f fqn && str_eqb n name then Some i else cache_get c fqn name
  end.
Definition cache_put (c : cache) (fqn name : gostr) (i : inherited) : cache := (fqn, name, i) :: c.

(** Go maps *)
Definition map_at (maps : list (list gostr)) (a : nat) : list gostr := nth a maps [].
Fixpoint map_update (maps : list (list gostr)) (a : nat) (s : list gostr) : list (list gostr) :=
  match maps, a with
  | [], _ => []
  | _ :: ms, O => s :: ms
  | m :: ms, S a => m :: map_update ms a s
  end.
(** [m[x] = struct{}{}] *)
Definition map_insert (maps : list (list gostr)) (a : nat) (x : gostr) : list (list gostr) :=
  map_update maps a (set_add x (map_at maps a)).
(** [for fqn := range other { m[fqn] = struct{}{} }] *)
Definition map_union (maps : list (list gostr)) (a other : nat) : list (list gostr) :=
  map_update maps a (fold_right set_add (map_at maps a) (map_at maps other)).

Definition with_maps (q : query) (m : list (list gostr)) : query :=
  Query (q_class_cache q) (q_interface_cache q) (q_trait_cache q) m.
(** [make(map[string]struct{})] *)
Definition alloc (q : query) : nat * query := (length (q_maps q), with_maps q (q_maps q ++ [[]])).
(** [if searchedFQNs == nil { searchedFQNs = map... }] *)
Definition or_alloc (q : query) (a : option nat) : nat * query :=
  match a with Some a => (a, q) | None => alloc q end.

(** query.go:300-309, 575-581, 818-824 Merge *)
Definition Merge (q : query) (m other : inherited) : query * inherited :=
  (with_maps q (map_union (q_maps q) (ih_searched m) (ih_searched other)),
   Inherited (ih_members m ++ ih_members other) (ih_relations m ++ ih_relations other) (ih_searched m)).

(** The difference between the copies of the code: whether the relations
    between class-likes are recorded (class constants only), whether the
    classes already searched are skipped and marked, and whether traits are
    searched (methods only). *)
Variable relate marks traits : bool.
Variable db : database.

(** query.go:461-481, 696-719, 933-954; [None]: out of fuel *)
Fixpoint interface_loop (fuel : nat) (name : gostr) (a : nat) (interfaces : list interface)
  (maps : list (list gostr)) (acc : list with_scope) (rel : relation_map)
  : option (list (list gostr) * list with_scope * relation_map) :=
  match fuel with
  | O => None
  | S fuel =>
      match interfaces with
      | [] => Some (maps, acc, rel)
      | intf :: rest =>
          let scope := ts_fqn (i_name intf) in
          if set_mem scope (map_at maps a) then interface_loop fuel name a rest maps acc rel
          else
            let maps := map_insert maps a scope in
            let extends := flat_map (fun e => if ts_IsEmpty e then [] else db_interfaces db (ts_fqn e)) (i_extends intf) in
            interface_loop fuel name a
              (rest ++ List.filter (fun i => negb (set_mem (ts_fqn (i_name i)) (map_at maps a))) extends)
              maps
              (acc ++ with_scope_from (ScInterface intf) (db_members db scope name))
              (rel ++ (if relate then map (fun i => (scope, ts_fqn (i_name i))) extends else []))
      end
  end.

(** query.go:445-484 GetInterfaceMethods, 681-722 GetInterfaceClassConsts,
    918-957 GetInterfaceProps *)
Definition GetInterfaceMembers (fuel : nat) (q : query) (intf : interface) (name : gostr) (searched : option nat)
  : option (query * inherited) :=
  let '(a, q) := or_alloc q searched in
  match cache_get (q_interface_cache q) (ts_fqn (i_name intf)) name with
  | Some i => Some (q, i)
  | None =>
      match interface_loop fuel name a [intf] (q_maps q) [] [] with
      | None => None
      | Some (maps, acc, rel) =>
          let r := Inherited acc rel a in
          Some (Query (q_class_cache q) (cache_put (q_interface_cache q) (ts_fqn (i_name intf)) name r)
                  (q_trait_cache q) maps, r)
      end
  end.

(** query.go:487-499 GetTraitMethods *)
Definition GetTraitMembers (q : query) (t : trait) (name : gostr) : query * inherited :=
  let fqn := ts_fqn (t_name t) in
  match cache_get (q_trait_cache q) fqn name with
  | Some i => (q, i)
  | None =>
      let '(a, q) := alloc q in
      let r := Inherited (with_scope_from (ScTrait t) (db_members db fqn name)) [] a in
      (Query (q_class_cache q) (q_interface_cache q) (cache_put (q_trait_cache q) fqn name r) (q_maps q), r)
  end.

(** query.go:418-425: [for _, use := range class.Use] *)
Definition merge_traits (q : query) (methods : inherited) (uses : list type_string) (name : gostr) : query * inherited :=
  fold_left (fun qm t => let '(q, m) := qm in
                         let '(q, other) := GetTraitMembers q t name in
                         Merge q m other)
    (flat_map (fun u => if ts_IsEmpty u then [] else db_traits db (ts_fqn u)) uses) (q, methods).

(** query.go:431-438, 665-673, 905-912: [for _, implement := range class.Interfaces] *)
Fixpoint merge_interfaces (ifuel : nat) (q : query) (m : inherited) (is : list interface) (name : gostr)
  : option (query * inherited) :=
  match is with
  | [] => Some (q, m)
  | i :: is =>
      match GetInterfaceMembers ifuel q i name (Some (ih_searched m)) with
      | None => None
      | Some (q, other) => let '(q, m) := Merge q m other in merge_interfaces ifuel q m is name
      end
  end.

(** query.go:408-439, 653-674, 897-913.  [m] is methods, [mi]
    methodsFromInterfaces *)
Fixpoint class_loop (ifuel fuel : nat) (q : query) (name : gostr) (classes : list class) (m mi : inherited)
  : option (query * inherited * inherited) :=
  match fuel with
  | O => None
  | S fuel =>
      match classes with
      | [] => Some (q, m, mi)
      | class :: rest =>
          let scope := ts_fqn (c_name class) in
          if marks && set_mem scope (map_at (q_maps q) (ih_searched m))
          then class_loop ifuel fuel q name rest m mi
          else
            let q := if marks then with_maps q (map_insert (q_maps q) (ih_searched m) scope) else q in
            let m := Inherited (ih_members m ++ with_scope_from (ScClass class) (db_members db scope name)) (ih_relations m) (ih_searched m) in
            let '(q, m) := if traits then merge_traits q m (c_use class) name else (q, m) in
            let extends := ts_fqn (c_extends class) in
            let push := negb (ts_IsEmpty (c_extends class)) && negb (set_mem extends (map_at (q_maps q) (ih_searched m))) in
            let rest := if push then rest ++ db_classes db extends else rest in
            let implements := flat_map (fun e => if ts_IsEmpty e then [] else db_interfaces db (ts_fqn e)) (c_interfaces class) in
            let m := Inherited (ih_members m)
                       (ih_relations m ++ (if relate then (if push then [(scope, extends)] else [])
                                                          ++ map (fun i => (scope, ts_fqn (i_name i))) implements else []))
                       (ih_searched m) in
            match merge_interfaces ifuel q mi implements name with
            | None => None
            | Some (q, mi) => class_loop ifuel fuel q name rest m mi
            end
      end
  end.

(** query.go:394-443 GetClassMethods, 639-679 GetClassClassConsts (which looks
    at the cache before making the map: without effect), 884-916 GetClassProps *)
Definition GetClassMembers (fuel : nat) (q : query) (class : class) (name : gostr) (searched : option nat)
  : option (query * inherited) :=
  let '(a, q) := or_alloc q searched in
  match cache_get (q_class_cache q) (ts_fqn (c_name class)) name with
  | Some i => Some (q, i)
  | None =>
      match class_loop fuel fuel q name [class] (Inherited [] [] a) (Inherited [] [] a) with
      | None => None
      | Some (q, m, mi) =>
          let '(q, m) := Merge q m mi in
          Some (Query (cache_put (q_class_cache q) (ts_fqn (c_name class)) name m)
                  (q_interface_cache q) (q_trait_cache q) (q_maps q), m)
      end
  end.

(** ** Access rules *)
(** expression.go:57-61 MemberAccess *)
Record access := Access { ac_scope_name : gostr; ac_scope_types : list type_string }.
(** relativeScope.go:10-16 *)
Definition IsNameRelative (n : gostr) : bool :=
  str_eqb n (B "static") || str_eqb n (B "self") || str_eqb n (B "$this").
Definition IsNameParent (n : gostr) : bool := str_eqb n (B "parent").

(** the loop query.go:228-243 and 260-273, with the class it compares with as
    argument: (isSameClass, isRelated) *)
Fixpoint same_or_related (same : gostr) (rel : relation_map) (memberScope : gostr) (types : list type_string) : bool * bool :=
  match types with
  | [] => (false, false)
  | t :: ts =>
      if str_eqb (ts_fqn t) same then (true, false)
      else if IsRelated rel memberScope (ts_fqn t) then (false, true)
      else same_or_related same rel memberScope ts
  end.

(** query.go:211-245 *)
Definition IsInheritedStatic (currentClass : gostr) (ac : access) (rel : relation_map) (m : M) : bool :=
  if IsNameParent (ac_scope_name ac) then negb (str_eqb (mb_scope m) currentClass) && negb (Z.eqb (mb_visibility m) Private)
  else if IsNameRelative (ac_scope_name ac) then str_eqb (mb_scope m) currentClass || negb (Z.eqb (mb_visibility m) Private)
  else if negb (mb_static m) then false
  else if Z.eqb (mb_visibility m) Public then true
  else let '(same, related) := same_or_related (mb_scope m) rel (mb_scope m) (ac_scope_types ac) in
       same || (related && Z.eqb (mb_visibility m) Protected).

(** query.go:248-275 *)
Definition IsInherited (currentClass : gostr) (ac : access) (rel : relation_map) (m : M) : bool :=
  if str_eqb (ac_scope_name ac) (B "$this") && (str_eqb (mb_scope m) currentClass || negb (Z.eqb (mb_visibility m) Private)) then true
  else if Z.eqb (mb_visibility m) Public then true
  else let '(same, related) := same_or_related currentClass rel (mb_scope m) (ac_scope_types ac) in
       same || (related && Z.eqb (mb_visibility m) Protected).

(** query.go:311-321 ReduceFirst: [None] is the empty MethodWithScope *)
Definition ReduceFirst (i : inherited) : option with_scope :=
  find (fun x => Z.eqb (mb_visibility (ws_member x)) Public) (ih_members i).

(** query.go:323-343, 583-597, 826-840 *)
Fixpoint reduce (ok : M -> bool) (adjust : with_scope -> with_scope) (seen : list gostr) (l : list with_scope) : list with_scope :=
  match l with
  | [] => []
  | x :: l =>
      if set_mem (mb_name (ws_member x)) seen then reduce ok adjust seen l
      else if ok (ws_member x) then adjust x :: reduce ok adjust (mb_name (ws_member x) :: seen) l
      else reduce ok adjust seen l
  end.
Definition ReduceStatic (i : inherited) (currentClass : gostr) (ac : access) : list with_scope :=
  reduce (IsInheritedStatic currentClass ac (ih_relations i)) (fun x => x) [] (ih_members i).
(** query.go:345-369, 842-860; staticInAccessCost is 16 (query.go:8) *)
Definition staticInAccessCost : Z := 16.
Definition ReduceAccess (i : inherited) (currentClass : gostr) (ac : access) : list with_scope :=
  reduce (IsInherited currentClass ac (ih_relations i))
    (fun x => if mb_static (ws_member x) then WithScope (ws_member x) (ws_scope x) (ws_score x - staticInAccessCost) else x)
    [] (ih_members i).

End Query.
Arguments with_scope M : clear implicits.
Arguments inherited M : clear implicits.
Arguments database M : clear implicits.
Arguments query M : clear implicits.

(** The three kinds: query.go:394, 446, 639, 682, 884, 919 *)
Definition GetClassMethods := GetClassMembers (M := method) false true true.
Definition GetInterfaceMethods := GetInterfaceMembers (M := method) false.
Definition GetClassClassConsts := GetClassMembers (M := class_const) true false false.
Definition GetInterfaceClassConsts := GetInterfaceMembers (M := class_const) true.
Definition GetClassProps := GetClassMembers (M := property) false false false.
Definition GetInterfaceProps := GetInterfaceMembers (M := property) false.
