(** What the types of an expression are, independently of the objects that
    remember them. *)
From Coq Require Import String.
From Coq Require Import List Bool Arith ZArith.
From Verif Require Import Base.Bytes Base.Protocol Symbols.Symbols Symbols.KeysModel Query.QueryModel Expr.ExprModel.
Import ListNotations.
Open Scope list_scope.

(** An expression, as far as its types go.
    [EKnown types]: the types are written down (new C, self, parent, ...)
    [EVariable name known global value]: a variable; [known] are the types
      written down for it and for its earlier occurrences, [value] what it
      was last assigned or iterates over
    [ECall f]: a call of the function f
    [EClass known e]: what stands before ::, a name or a variable
    [ESame e]: (e) or clone e
    [EElement e]: an element of e, in foreach (e as ...)
    [EMember m name at scope_name e]: e->name, e->name(), e::$name or
      e::name(); the expression e begins at [at]; [scope_name] is e if it is a
      variable or a name *)
Inductive expr :=
| ENothing
| EKnown (types : type_composite)
| EVariable (name : gostr) (known : type_composite) (global : bool) (value : expr)
| ECall (name : gostr)
| EClass (known : type_composite) (e : expr)
| ESame (e : expr)
| EElement (e : expr)
| EMember (m : member_kind) (name : gostr) (at_ : position) (scope_name : gostr) (e : expr).

(** [types] lists the class (or type) f as an n-fold array *)
Definition listed (types : type_composite) (f : gostr) (n : Z) : Prop :=
  exists t, In t types /\ ts_fqn t = f /\ ts_array t = n.
(** the type stands for the class of the object it is returned by *)
Definition is_static (t : type_string) : Prop := ts_original t = B "static" \/ ts_original t = B "$this".

(** Given what is declared ([L]), the expression can be an n-fold array of f
    (n = 0: no array).  Which members of an object are visible depends on the
    types the object can have: [taken receiver types] says which lists
    [receiver] stand for these types. *)
Section Typed.
Variable taken : type_composite -> (gostr -> Z -> Prop) -> Prop.
Fixpoint typed_by (L : lookups) (e : expr) (f : gostr) (n : Z) : Prop :=
  match e with
  | ENothing => False
  | EKnown types => listed types f n
  | EVariable name known global value =>
      listed known f n
      \/ (global = true /\ exists types, In types (lk_globals L name) /\ listed types f n)
      \/ typed_by L value f n
  | ECall name => exists types, In types (lk_functions L name) /\ listed types f n
  | EClass known e => listed known f n \/ typed_by L e f n
  | ESame e => typed_by L e f n
  | EElement e => exists k, typed_by L e f k /\ k <> 0%Z /\ n = (k - 1)%Z
  | EMember m name at_ scope_name e =>
      (* a class the receiver can be, and a member of that name declared there and visible here *)
      exists receiver c k declared,
        taken receiver (typed_by L e)
        /\ typed_by L e c k
        /\ In declared (lk_members L m (lk_class_at L at_) (Access scope_name receiver) c name)
        /\ match m with
           | MProperty | MStaticProperty => listed declared f n
           | MMethod | MStaticMethod =>
               exists t, In t declared
                 /\ ((~ is_static t /\ ts_fqn t = f /\ ts_array t = n)
                     \/ (is_static t /\ exists k, typed_by L e f k /\ n = (k + ts_array t)%Z))
           end
  end.
End Typed.
(** [receiver] lists all the types the object can have, and no other *)
Definition all_of (receiver : type_composite) (types : gostr -> Z -> Prop) : Prop := forall f n, listed receiver f n <-> types f n.
(** [receiver] lists some types the object can have *)
Definition some_of (receiver : type_composite) (types : gostr -> Z -> Prop) : Prop := forall f n, listed receiver f n -> types f n.
Definition typed := typed_by all_of.
(** a type that can be derived from some of the types of the receivers *)
Definition derivable := typed_by some_of.

(** No type comes with two array levels, in the expression or a part of it. *)
Definition one_level (L : lookups) (e : expr) : Prop := forall f n m, typed L e f n -> typed L e f m -> n = m.
Fixpoint consistent (L : lookups) (e : expr) : Prop :=
  one_level L e
  /\ match e with
     | ENothing | EKnown _ | ECall _ => True
     | EVariable _ _ _ e | EClass _ e | ESame e | EElement e | EMember _ _ _ _ e => consistent L e
     end.

(** The members found do not depend on the order or the spelling of the
    types of the receiver. *)
Definition by_types (L : lookups) : Prop := forall m c n r r' f name,
  (forall f n, listed r f n <-> listed r' f n) -> lk_members L m c (Access n r) f name = lk_members L m c (Access n r') f name.

(** The expression an object stands for. *)
Inductive shows (h : heap) : nat -> expr -> Prop :=
| shows_known : forall i o, nth_error h i = Some o -> o_kind o = KPlain -> shows h i (EKnown (o_types o))
| shows_variable : forall i o e, nth_error h i = Some o -> o_kind o = KVariable -> shows_scope h (o_scope o) e ->
    shows h i (EVariable (o_name o) (o_types o) (o_global o) e)
| shows_call : forall i o, nth_error h i = Some o -> o_kind o = KCall -> shows h i (ECall (o_name o))
| shows_class : forall i o e, nth_error h i = Some o -> o_kind o = KClassAccess -> shows_scope h (o_scope o) e ->
    shows h i (EClass (o_types o) e)
| shows_same : forall i o e, nth_error h i = Some o -> o_kind o = KDerived -> shows_scope h (o_scope o) e ->
    shows h i (ESame e)
| shows_element : forall i o e, nth_error h i = Some o -> o_kind o = KForeach -> shows_scope h (o_scope o) e ->
    shows h i (EElement e)
| shows_no_member : forall i o m, nth_error h i = Some o -> o_kind o = KMember m -> o_scope o = None ->
    shows h i (EMember m (o_name o) zero_pos [] ENothing)
| shows_member : forall i o m s so e, nth_error h i = Some o -> o_kind o = KMember m -> o_scope o = Some s ->
    nth_error h s = Some so -> shows h s e ->
    shows h i (EMember m (o_name o) (o_at so) (ScopeName so) e)
with shows_scope (h : heap) : option nat -> expr -> Prop :=
| shows_nothing : shows_scope h None ENothing
| shows_some : forall s e, shows h s e -> shows_scope h (Some s) e.

(** The analysis refers to objects that are there, and passes on only
    variables as earlier occurrences of a variable; only plain objects and
    class accesses are built with types. *)
Definition there (h : heap) (i : nat) : Prop := (i < length h)%nat.
Definition op_ok (h : heap) (c : op) : Prop :=
  match c with
  | NewObject k name at_ types scope =>
      k <> KVariable /\ (forall s, scope = Some s -> there h s)
      /\ (types = [] \/ k = KPlain \/ k = KClassAccess)
  | NewVariable name at_ doc this earlier global value =>
      Forall (fun v => exists o, nth_error h v = Some o /\ o_kind o = KVariable) earlier
      /\ (forall e, value = Some e -> there h e)
  end.
(** the objects of an analysed file *)
Inductive analysed : heap -> Prop :=
| analysed_start : analysed []
| analysed_step : forall h c h', analysed h -> op_ok h c -> build h c = Some h' -> analysed h'.

(** [asked L h is h']: the types of the objects [is] have been asked for, one
    after the other, with the declarations [L] *)
Inductive asked (L : lookups) (h : heap) : list nat -> heap -> Prop :=
| asked_nothing : asked L h [] h
| asked_next : forall is h1 i h2 types, asked L h is h1 -> there h i -> ask L h1 i = Some (h2, types) -> asked L h (is ++ [i]) h2.
