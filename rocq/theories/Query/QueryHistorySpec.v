(** The class-likes and members of a workspace, stated over its history. *)
From Coq Require Import String.
From Coq Require Import List Bool ZArith.
From Coq.Strings Require Import Byte.
From Verif Require Import Base.Bytes Symbols.Symbols Symbols.KeysModel Store.FilterModel Store.StoreModel Store.StoreSpec Store.LookupKinds Query.QueryModel Query.QuerySpec.
Import ListNotations.
Open Scope list_scope.

Section H.
Context {T : Text}.
Variable h : list event.

(** [x] is a current declaration, as the index keeps it ([keep] forgets what
    C02 and C03 list) *)
Definition indexed (x : symbol) : Prop := exists s, current h s /\ x = keep s.

Definition class_named (n : gostr) (c : class) : Prop := current h (SClass c) /\ same_class_name (ts_fqn (c_name c)) n.
Definition interface_named (n : gostr) (i : interface) : Prop := indexed (SInterface i) /\ ts_fqn (i_name i) = n.
Definition trait_named (n : gostr) (t : trait) : Prop := current h (STrait t) /\ ts_fqn (t_name t) = n.
Definition method_named (scope n : gostr) (m : method) : Prop :=
  indexed (SMethod m) /\ ts_fqn (m_scope m) = scope /\ (n = [] \/ to_lower (m_name m) = to_lower n).
Definition const_named (scope n : gostr) (c : class_const) : Prop :=
  indexed (SClassConst c) /\ ts_fqn (cc_scope c) = scope /\ (n = [] \/ cc_name c = n).
Definition prop_named (scope n : gostr) (p : property) : Prop :=
  indexed (SProperty p) /\ ts_fqn (pr_scope p) = scope /\ (n = [] \/ pr_name p = n).

Definition workspace {M} (members : gostr -> gostr -> M -> Prop) : world M :=
  World class_named interface_named trait_named members.

(** no two classes of the same name, no two interfaces, no two traits, and no
    interface with the name of a class *)
Record unique_names : Prop := {
  u_class : forall c d, current h (SClass c) -> current h (SClass d) -> same_class_name (ts_fqn (c_name c)) (ts_fqn (c_name d)) -> c = d;
  u_interface : forall i j, current h (SInterface i) -> current h (SInterface j) -> ts_fqn (i_name i) = ts_fqn (i_name j) -> i = j;
  u_trait : forall t u, current h (STrait t) -> current h (STrait u) -> ts_fqn (t_name t) = ts_fqn (t_name u) -> t = u;
  u_apart : forall c i, current h (SClass c) -> current h (SInterface i) -> ~ same_class_name (ts_fqn (c_name c)) (ts_fqn (i_name i)) }.
End H.
