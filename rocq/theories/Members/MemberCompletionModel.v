(** Completion behind [->] and [::]: internal/lsp/completion.go:320-411. *)
From Coq Require Import String.
From Coq Require Import List Bool ZArith.
From Coq.Strings Require Import Byte.
From Verif Require Import Base.Bytes Base.Protocol Symbols.Symbols Symbols.KeysModel Store.FilterModel Store.StoreModel
  Query.QueryModel Query.QueryStoreModel Completion.SortModel Members.MemberModel.
Import ListNotations.
Open Scope list_scope.

(** symbolConverter.go:504-540: kind, label and inserted text; documentation,
    detail, format and command are left out *)
Inductive item_kind := MethodCompletion | PropertyCompletion | ConstantCompletion.
Record item := Item { it_kind : item_kind; it_label : gostr; it_insert : gostr }.
(** symbolConverter.go:388-393, 504-516 *)
Definition methodToCompletionItem (m : method) : item :=
  Item MethodCompletion (m_name m) (m_name m ++ match m_params m with [] => B "()" | _ => B "($0)" end).
(** symbolConverter.go:518-531 *)
Definition propToCompletionItem (p : property) : item := Item PropertyCompletion (pr_name p) (tl (pr_name p)).
(** symbolConverter.go:533-540 *)
Definition classConstToCompletionItem (c : class_const) : item := Item ConstantCompletion (cc_name c) [].

(** what a request ends with: a list, or a panic *)
Inductive completed := Items (l : list item) | Crash.

Section Completion.
Context {T : Text} {X : XorFilter}.
Variables (st : store) (score : gostr -> gostr -> Z) (fuel : nat) (word : gostr).

(** query.go:500-537, 720-757, 959-996; the members are fetched for all names *)
Definition SearchClassMethods := fun (q : query method) c s => Search score word (put_class [] c) (GetClassMethods (method_db st) fuel q c [] s).
Definition SearchInterfaceMethods := fun (q : query method) i s => Search score word (put_interface [] i) (GetInterfaceMethods (method_db st) fuel q i [] s).
Definition SearchClassClassConsts := fun (q : query class_const) c s => Search score word (put_class [] c) (GetClassClassConsts (const_db st) fuel q c [] s).
Definition SearchInterfaceClassConsts := fun (q : query class_const) i s => Search score word (put_interface [] i) (GetInterfaceClassConsts (const_db st) fuel q i [] s).
Definition SearchClassProps := fun (q : query property) c s => Search score word (put_class [] c) (GetClassProps (prop_db st) fuel q c [] s).
Definition SearchInterfaceProps := fun (q : query property) i s => Search score word (put_interface [] i) (GetInterfaceProps (prop_db st) fuel q i [] s).

(** completion.go:382-394: methods and properties are collected in one loop
    over the types; they share nothing but what was read of the store *)
Definition arrow_methods (q : query method) cur ac (types : list type_string) :=
  of_types SearchClassMethods SearchInterfaceMethods no_traits (method_db st) true false (fun ms => ReduceAccess ms cur ac) q [] types.
Definition arrow_props (q : query property) cur ac (types : list type_string) :=
  of_types SearchClassProps SearchInterfaceProps no_traits (prop_db st) true false (fun ps => ReduceAccess ps cur ac) q [] types.
(** completion.go:328-352; behind [::$] neither methods nor constants are
    collected *)
Definition scoped_methods (variable : bool) (q : query method) cur ac (types : list type_string) :=
  if variable then Some (q, [])
  else of_types SearchClassMethods SearchInterfaceMethods no_traits (method_db st) true false (fun ms => ReduceStatic ms cur ac) q [] types.
Definition scoped_props (q : query property) cur ac (types : list type_string) :=
  of_types SearchClassProps SearchInterfaceProps no_traits (prop_db st) true false (fun ps => ReduceStatic ps cur ac) q [] types.
Definition scoped_consts (variable : bool) (q : query class_const) cur ac (types : list type_string) :=
  if variable then Some (q, [])
  else of_types SearchClassClassConsts SearchInterfaceClassConsts no_traits (const_db st) true false (fun ccs => ReduceStatic ccs cur ac) q [] types.

(** completion.go:396-410; the label of a property without its first character
    panics if there is none *)
Definition without_dollar (i : item) : option item :=
  match it_label i with [] => None | _ :: l => Some (Item (it_kind i) l (it_insert i)) end.
Fixpoint without_dollars (l : list item) : option (list item) :=
  match l with
  | [] => Some []
  | i :: l => match without_dollar i, without_dollars l with Some i, Some l => Some (i :: l) | _, _ => None end
  end.
(** [None]: out of fuel.  completion.go:372-411 *)
Definition memberAccessCompletion (qm : query method) (qp : query property) cur ac types : option completed :=
  match arrow_methods qm cur ac types, arrow_props qp cur ac types with
  | Some (_, ms), Some (_, ps) =>
      Some (match without_dollars (map (fun p => propToCompletionItem (ws_member p)) ps) with
            | None => Crash
            | Some props => Items (orderItems (map (fun m => methodToCompletionItem (ws_member m)) ms ++ props) (map ws_score ms ++ map ws_score ps))
            end)
  | _, _ => None
  end.
(** completion.go:320-370 *)
Definition scopedAccessCompletion (variable : bool) (qm : query method) (qp : query property) (qc : query class_const) cur ac types : option completed :=
  match scoped_methods variable qm cur ac types, scoped_props qp cur ac types, scoped_consts variable qc cur ac types with
  | Some (_, ms), Some (_, ps), Some (_, cs) =>
      Some (Items (orderItems (map (fun m => methodToCompletionItem (ws_member m)) ms ++ map (fun p => propToCompletionItem (ws_member p)) ps
                     ++ map (fun c => classConstToCompletionItem (ws_member c)) cs)
                   (map ws_score ms ++ map ws_score ps ++ map ws_score cs)))
  | _, _, _ => None
  end.
End Completion.
