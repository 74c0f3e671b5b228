(** analysis/query.go: the answers of the store that a query works with. *)
From Coq Require Import String.
From Coq Require Import List.
From Coq.Strings Require Import Byte.
From Verif Require Import Base.Bytes Symbols.Symbols Symbols.KeysModel Store.FilterModel Store.StoreModel Query.QueryModel.
Import ListNotations.
Open Scope list_scope.

Section Db.
Context {T : Text} {X : XorFilter}.

(** a store whose values do not decode panics (StoreModel.get_all); here such
    an answer is empty *)
Definition answer {A} (o : option (list A)) : list A := match o with Some l => l | None => [] end.

(** query.go:376-391 GetMethods, 608-623 GetClassConsts, 866-881 GetProps *)
Definition Query_GetMethods (st : store) (scope name : gostr) : list method :=
  answer (match name with [] => GetAllMethods st scope | _ => GetMethods st scope name end).
Definition Query_GetClassConsts (st : store) (scope name : gostr) : list class_const :=
  answer (match name with [] => GetAllClassConsts st scope | _ => GetClassConsts st scope name end).
Definition Query_GetProps (st : store) (scope name : gostr) : list property :=
  answer (match name with [] => GetAllProperties st scope | _ => GetProperties st scope name end).

(** query.go:30-73 GetClasses, GetInterfaces, GetTraits *)
Definition store_db {M} (members : gostr -> gostr -> list M) (st : store) : database M :=
  Db (fun n => answer (Query_GetClasses st n)) (fun n => answer (GetInterfaces st n)) (fun n => answer (GetTraits st n)) members.
Definition method_db (st : store) : database method := store_db (Query_GetMethods st) st.
Definition const_db (st : store) : database class_const := store_db (Query_GetClassConsts st) st.
Definition prop_db (st : store) : database property := store_db (Query_GetProps st) st.
End Db.
