(** What variable lookup and unused variables mean. *)
From Coq Require Import String.
From Coq Require Import List Bool ZArith.
From Verif Require Import Base.Bytes Base.Protocol Text.PositionSpec Ide.VariableModel.
Import ListNotations.
Open Scope list_scope.

(** a recorded occurrence *)
Record occurrence := Occ { oc_var : variable; oc_start : position; oc_decl : bool }.
Definition oc_name (o : occurrence) : gostr := v_name (oc_var o).
(** where it is written *)
Definition oc_pos (o : occurrence) : position := r_start (v_range (oc_var o)).

(** a table after recording occurrences *)
Definition table_of (occs : list occurrence) : var_map :=
  fold_left (fun m o => table_add m (oc_var o) (oc_start o) (oc_decl o)) occs [].

(** [o] is the latest of the occurrences of [name] that satisfy [ok]: none
    starts later; of those that start at the same position it is the one
    recorded last *)
Definition latest (occs : list occurrence) (name : gostr) (ok : position -> Prop) (o : occurrence) : Prop :=
  exists earlier later, occs = earlier ++ o :: later /\ oc_name o = name /\ ok (oc_start o)
  /\ (forall o', In o' earlier -> oc_name o' = name -> ok (oc_start o') -> at_or_before (oc_start o') (oc_start o))
  /\ (forall o', In o' later -> oc_name o' = name -> ok (oc_start o') -> before (oc_start o') (oc_start o)).

(** the declarations that have no use of the name recorded after them *)
Definition same_use (scope : nat) (name : gostr) (x : nat * occurrence) : bool :=
  Nat.eqb (fst x) scope && str_eqb (oc_name (snd x)) name && negb (oc_decl (snd x)).
Fixpoint unread (occs : list (nat * occurrence)) : list variable :=
  match occs with
  | [] => []
  | (scope, o) :: occs =>
      if oc_decl o && negb (existsb (same_use scope (oc_name o)) occs) then oc_var o :: unread occs else unread occs
  end.

(** the occurrences with the number of their function scope: 0 is the
    document, the others are numbered in the order in which they open; [stack]
    has the innermost scope first *)
Fixpoint scoped (next : nat) (stack : list nat) (ops : list var_op) : list (nat * occurrence) :=
  match ops with
  | [] => []
  | OpenScope _ :: ops => scoped (S next) (next :: stack) ops
  | CloseScope :: ops => scoped next (tl stack) ops
  | RecordVar v start d :: ops =>
      match stack with s :: _ => (s, Occ v start d) :: scoped next stack ops | [] => scoped next stack ops end
  | Capture v :: ops =>
      match stack with
      | s :: t :: _ => (s, Occ v (r_end (v_range v)) true) :: (t, Occ v (r_end (v_range v)) false) :: scoped next stack ops
      | _ => scoped next stack ops
      end
  end.
(** scopes are closed in pairs, the document's stays open *)
Fixpoint balanced (depth : nat) (ops : list var_op) : Prop :=
  match ops with
  | [] => depth = 0%nat
  | OpenScope _ :: ops => balanced (S depth) ops
  | CloseScope :: ops => match depth with S d => balanced d ops | O => False end
  | _ :: ops => balanced depth ops
  end.

(** uses are recorded in document order: a use comes after all occurrences of
    its name that were recorded before it in its scope *)
Definition in_order (occs : list (nat * occurrence)) : Prop :=
  forall a s u b, occs = a ++ (s, u) :: b -> oc_decl u = false ->
  forall o, In (s, o) a -> oc_name o = oc_name u -> before (oc_pos o) (oc_pos u).
