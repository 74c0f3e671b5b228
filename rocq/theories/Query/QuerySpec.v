(** What belongs to a class, independently of how it is collected. *)
From Coq Require Import List Bool ZArith.
From Verif Require Import Base.Bytes Symbols.Symbols Symbols.KeysModel Query.QueryModel.
Import ListNotations.
Open Scope list_scope.

(** The class-likes and members there are: [w_class w n c] says that the class
    [c] goes by the name [n], [w_member w scope name m] that the member [m] is
    declared in the class-like [scope] and goes by [name] (any member goes by
    the empty name). *)
Record world (M : Type) := World {
  w_class : gostr -> class -> Prop;
  w_interface : gostr -> interface -> Prop;
  w_trait : gostr -> trait -> Prop;
  w_member : gostr -> gostr -> M -> Prop }.
Arguments World {M}. Arguments w_class {M}. Arguments w_interface {M}. Arguments w_trait {M}. Arguments w_member {M}.
(** those the store knows *)
Definition db_world {M} (db : database M) : world M :=
  World (fun n c => In c (db_classes db n)) (fun n i => In i (db_interfaces db n)) (fun n t => In t (db_traits db n))
        (fun s n m => In m (db_members db s n)).
Coercion db_world : database >-> world.

Section Spec.
Context {M : Type}.
Variable w : world M.

(** [p] is declared as a parent of [c] *)
Definition parent (c p : class) : Prop :=
  ts_IsEmpty (c_extends c) = false /\ w_class w (ts_fqn (c_extends c)) p.
(** [j] is named in the extends clause of the interface [i] *)
Definition super (i j : interface) : Prop :=
  exists e, In e (i_extends i) /\ ts_IsEmpty e = false /\ w_interface w (ts_fqn e) j.
Definition implements (c : class) (i : interface) : Prop :=
  exists e, In e (c_interfaces c) /\ ts_IsEmpty e = false /\ w_interface w (ts_fqn e) i.
Definition uses (c : class) (t : trait) : Prop :=
  exists e, In e (c_use c) /\ ts_IsEmpty e = false /\ w_trait w (ts_fqn e) t.

(** a class and its parents, their parents and so on *)
Inductive ancestor (c : class) : class -> Prop :=
| ancestor_self : ancestor c c
| ancestor_parent : forall d p, ancestor c d -> parent d p -> ancestor c p.
Inductive super_interface (i : interface) : interface -> Prop :=
| super_self : super_interface i i
| super_step : forall j k, super_interface i j -> super j k -> super_interface i k.

(** the members called [name] (all for the empty name) of a class, with the
    class-like that declares them *)
Inductive belongs (c : class) (name : gostr) : M -> scope_symbol -> Prop :=
| own_member : forall d m, ancestor c d -> w_member w (ts_fqn (c_name d)) name m -> belongs c name m (ScClass d)
| trait_member : forall d t m, ancestor c d -> uses d t -> w_member w (ts_fqn (t_name t)) name m -> belongs c name m (ScTrait t)
| interface_member : forall d i j m, ancestor c d -> implements d i -> super_interface i j ->
    w_member w (ts_fqn (i_name j)) name m -> belongs c name m (ScInterface j).
(** the same for an interface *)
Inductive interface_belongs (i : interface) (name : gostr) : M -> scope_symbol -> Prop :=
| super_member : forall j m, super_interface i j -> w_member w (ts_fqn (i_name j)) name m ->
    interface_belongs i name m (ScInterface j).

(** no class-like is declared twice, not even with another case, and no
    interface has the name of a class *)
Record declared_once : Prop := {
  one_class : forall n m c d, w_class w n c -> w_class w m d ->
    n = m \/ ts_fqn (c_name d) = ts_fqn (c_name c) \/ ts_fqn (c_name d) = n -> c = d;
  one_interface : forall n i, w_interface w n i -> ts_fqn (i_name i) = n;
  one_interface' : forall n i j, w_interface w n i -> w_interface w n j -> i = j;
  one_trait : forall n t, w_trait w n t -> ts_fqn (t_name t) = n;
  one_trait' : forall n t u, w_trait w n t -> w_trait w n u -> t = u;
  no_interface_class : forall n m c i, w_class w n c -> w_interface w m i ->
    ts_fqn (i_name i) <> ts_fqn (c_name c) /\ ts_fqn (i_name i) <> n }.

(** no class extends itself through a chain of parents *)
Definition acyclic : Prop := exists rank : class -> nat, forall c p, parent c p -> (rank p < rank c)%nat.

(** the class itself, its parent, the parent's parent, ... *)
Inductive generation (c : class) : nat -> class -> Prop :=
| generation_0 : generation c 0 c
| generation_S : forall n d p, generation c n d -> parent d p -> generation c (S n) p.
(** [e] is reached from [c] in fewer steps than [d] *)
Definition nearer (c e d : class) : Prop :=
  exists i, generation c i e /\ forall j, generation c j d -> (i < j)%nat.
(** members declared in [s] override those of the same name declared in [t]:
    a class overrides what its traits and its ancestors bring, a trait what
    the ancestors of its user bring, and interfaces come last *)
Definition overrides (c : class) (s t : scope_symbol) : Prop :=
  match s, t with
  | ScClass e, ScClass d => nearer c e d
  | ScClass e, ScTrait u => ancestor c e /\ forall d, ancestor c d -> uses d u -> d = e \/ nearer c e d
  | ScTrait u, ScClass d => exists e, uses e u /\ nearer c e d
  | ScTrait u, ScTrait v => exists e, ancestor c e /\ uses e u /\ forall d, ancestor c d -> uses d v -> nearer c e d
  | ScClass e, ScInterface _ => ancestor c e
  | ScTrait u, ScInterface _ => exists e, ancestor c e /\ uses e u
  | ScInterface _, _ => False
  end.
End Spec.

(** a store with finitely many class-likes *)
Definition finite_db {M} (db : database M) : Prop := exists cs is,
  (forall n c, In c (db_classes db n) -> In c cs) /\ (forall n i, In i (db_interfaces db n) -> In i is).
(** [a] names a class-like that declares [b] as its parent, as one of its
    interfaces or in its extends clause *)
Definition declares_relation {M} (db : database M) (a b : gostr) : Prop :=
  (exists c, ts_fqn (c_name c) = a /\ ((ts_IsEmpty (c_extends c) = false /\ ts_fqn (c_extends c) = b)
                                       \/ exists i, implements db c i /\ ts_fqn (i_name i) = b))
  \/ exists i j, ts_fqn (i_name i) = a /\ super db i j /\ ts_fqn (i_name j) = b.

(** the query has not been asked for members of this name *)
Definition unasked {M} (q : query M) (name : gostr) : Prop :=
  (forall f i, ~ In (f, name, i) (q_class_cache q)) /\ (forall f i, ~ In (f, name, i) (q_interface_cache q)) /\ (forall f i, ~ In (f, name, i) (q_trait_cache q)).
