(** What walking a tree, the outline and finding symbols by position mean. *)
From Coq Require Import String.
From Coq Require Import List Bool ZArith Sorting.Sorted.
From Verif Require Import Base.Bytes Base.Protocol Text.PositionSpec Ide.TreeModel.
Import ListNotations.
Open Scope list_scope.

(** ** Paths *)
(** A node is named by the child numbers that lead to it. *)
Definition path := list nat.
Section Paths.
Context {T : Type} (kids : T -> list T).
Fixpoint at_path (t : T) (p : path) : option T :=
  match p with
  | [] => Some t
  | i :: p => match nth_error (kids t) i with Some c => at_path c p | None => None end
  end.
(** the nodes above the node at a path, outermost first *)
Fixpoint above (t : T) (p : path) : list T :=
  match p with
  | [] => []
  | i :: p => t :: match nth_error (kids t) i with Some c => above c p | None => [] end
  end.
(** the same for a list of trees; here no path is empty *)
Definition in_forest (ts : list T) (p : path) : option T :=
  match p with
  | [] => None
  | i :: p => match nth_error ts i with Some c => at_path c p | None => None end
  end.
Definition above_in (ts : list T) (p : path) : list T :=
  match p with
  | [] => []
  | i :: p => match nth_error ts i with Some c => above c p | None => [] end
  end.
End Paths.
(** document order: a node comes before the nodes below it and before
    everything below its later siblings *)
Fixpoint path_lt (p q : path) : Prop :=
  match p, q with
  | _, [] => False
  | [], _ :: _ => True
  | i :: p, j :: q => (i < j)%nat \/ (i = j /\ path_lt p q)
  end.
Definition proper_prefix (q p : path) : Prop := exists i r, p = q ++ i :: r.

Definition ast_kids (n : ast) : list ast := match n with Phrase _ k => k | Token _ _ _ => [] end.

(** ** The calls of a walk *)
(** one call of the visitor: the node, the nodes above, the answer *)
Notation visit_log := (list (ast * list ast * bool)).
(** the same visitor, which also notes its calls *)
Definition noting {S : Type} (visit : S -> ast -> list ast -> S * bool) (x : S * visit_log) (node : ast) (spine : list ast) : (S * visit_log) * bool :=
  let (s, b) := visit (fst x) node spine in ((s, snd x ++ [(node, spine, b)]), b).

(** the log is that of the calls at the paths [ps] *)
Definition calls_at (root : ast) (ps : list path) (log : visit_log) : Prop :=
  Forall2 (fun p c => at_path ast_kids root p = Some (fst (fst c)) /\ above ast_kids root p = snd (fst c)) ps log.
(** the node at [p] was visited and the visitor wanted to go below it *)
Definition entered (ps : list path) (log : visit_log) (p : path) : Prop :=
  exists k c, nth_error ps k = Some p /\ nth_error log k = Some c /\ snd c = true.

Notation call_log := (list (symbol * list symbol * answer)).
Definition noting_calls {S : Type} (fn : S -> symbol -> list symbol -> S * answer) (x : S * call_log) (s : symbol) (spine : list symbol) : (S * call_log) * answer :=
  let (st, a) := fn (fst x) s spine in ((st, snd x ++ [(s, spine, a)]), a).
(** here the nodes above include the symbol itself *)
Definition symbol_calls_at (doc : list symbol) (ps : list path) (log : call_log) : Prop :=
  Forall2 (fun p c => in_forest sy_kids doc p = Some (fst (fst c)) /\ above_in sy_kids doc p ++ [fst (fst c)] = snd (fst c)) ps log.
Definition answered (ps : list path) (log : call_log) (p : path) (a : answer) : Prop :=
  exists k c, nth_error ps k = Some p /\ nth_error log k = Some c /\ snd c = a.

(** ** Documents *)
Definition sym_at (doc : list symbol) (p : path) (s : symbol) : Prop := in_forest sy_kids doc p = Some s.
Definition start_of (s : symbol) : position := r_start (sy_range (sy_data s)).
Definition end_of (s : symbol) : position := r_end (sy_range (sy_data s)).
Definition contains (s : symbol) (pos : position) : Prop := inside pos (sy_range (sy_data s)).
(** what is below a symbol lies inside it *)
Definition nested (doc : list symbol) : Prop :=
  forall p q s t, sym_at doc p s -> sym_at doc q t -> proper_prefix p q ->
  at_or_before (start_of s) (start_of t) /\ at_or_before (end_of t) (end_of s).
(** symbols start in document order *)
Definition starts_ordered (doc : list symbol) : Prop :=
  forall p q s t, sym_at doc p s -> sym_at doc q t -> path_lt p q -> at_or_before (start_of s) (start_of t).

(** ** The outline *)
Definition is_declaration (k : sym_kind) : bool :=
  match k with KArgumentList | KClassTypeDesignator | KOther => false | _ => true end.
(** the declarations in document order, each with the declarations around it,
    outermost first *)
Fixpoint declarations (around : list sym_data) (s : symbol) : list (list sym_data * sym_data) :=
  match s with
  | Sym d kids =>
      if is_declaration (sy_kind d) then (around, d) :: flat_map (declarations (around ++ [d])) kids
      else flat_map (declarations around) kids
  end.
(** the entries of an outline in order, each with the entries above it *)
Fixpoint entries (above : list doc_data) (d : doc_symbol) : list (list doc_data * doc_data) :=
  match d with
  | DocSym x kids => (above, x) :: flat_map (entries (above ++ [x])) kids
  end.
(** what an entry shows *)
Definition shown (d : sym_data) : doc_data :=
  DocData (match sy_kind d with
           | KClass | KTrait => 5 | KInterface => 11 | KFunction => 12 | KMethod => 6 | KProperty => 7 | KConst | KClassConst | KDefine => 14
           | _ => 0
           end) (sy_name d) (sy_detail d) (sy_range d) (sy_range d).

(** ** Argument lists *)
(** the commas follow each other inside the list *)
Fixpoint commas_in (start : position) (commas : list range) (list_end : position) : Prop :=
  match commas with
  | [] => at_or_before start list_end
  | c :: commas => at_or_before start (r_start c) /\ before (r_start c) (r_end c) /\ commas_in (r_end c) commas list_end
  end.
(** the commas before a cursor: those that end at or before it *)
Definition commas_before (commas : list range) (pos : position) (n : nat) : Prop :=
  exists a b, commas = a ++ b /\ length a = n /\ (forall c, In c a -> at_or_before (r_end c) pos) /\ (forall c, In c b -> before pos (r_end c)).

(** ** Entering and leaving symbols *)
(** [(true, p)]: the symbol at [p] is entered, [(false, p)]: it is left.  A
    symbol is entered before everything below it and left after it, and two
    symbols that are not below each other are dealt with one after the other in
    document order. *)
Definition event_lt (e f : bool * path) : Prop :=
  (snd e = snd f /\ fst e = true /\ fst f = false)
  \/ (proper_prefix (snd e) (snd f) /\ fst e = true)
  \/ (proper_prefix (snd f) (snd e) /\ fst f = false)
  \/ (path_lt (snd e) (snd f) /\ ~ proper_prefix (snd e) (snd f)).

(** the argument list at [p] is that of the anonymous class created by [d] *)
Definition anonymous_class_arguments (doc : list symbol) (p : path) (d : symbol) : Prop :=
  exists r i j c, p = r ++ [i; j] /\ sym_at doc r d /\ sy_kind (sy_data d) = KClassTypeDesignator
  /\ sym_at doc (r ++ [i]) c /\ sy_kind (sy_data c) = KClass.
