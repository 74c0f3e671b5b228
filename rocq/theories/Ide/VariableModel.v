(** Variable tables: analysis/variable.go:106-242 and their use in
    analysis/document.go:302-356, 675-685.

    Simplified: types, descriptions and what a variable resolves to are left
    out. A Go map from names is an association list; its iteration order, which
    Go leaves open, is that of the list. *)
From Coq Require Import String.
From Coq Require Import List Bool ZArith.
From Verif Require Import Base.Bytes Base.Protocol Base.SortSearch Text.PositionModel.
Import ListNotations.
Open Scope list_scope.

(** variable.go:11-16: the name and where it is written *)
Record variable := MkVar { v_name : gostr; v_range : range }.
(** variable.go:106-112 contextualVariable *)
Record context_var := Ctx { cv_var : variable; cv_start : position; cv_decl : bool; cv_used : bool }.

(** map[string][]contextualVariable *)
Definition var_map := list (gostr * list context_var).
Fixpoint vars_get (m : var_map) (name : gostr) : option (list context_var) :=
  match m with
  | [] => None
  | (n, l) :: m => if str_eqb n name then Some l else vars_get m name
  end.
Fixpoint vars_set (m : var_map) (name : gostr) (l : list context_var) : var_map :=
  match m with
  | [] => [(name, l)]
  | (n, l') :: m => if str_eqb n name then (n, l) :: m else (n, l') :: vars_set m name l
  end.

(** variable.go:152-162: the loop that marks declarations as used *)
Fixpoint mark_used (pos : position) (name : gostr) (l : list context_var) : list context_var :=
  match l with
  | [] => []
  | c :: l =>
      if (ComparePos pos (r_start (v_range (cv_var c))) <=? 0)%Z then c :: l
      else (if cv_decl c && str_eqb (v_name (cv_var c)) name then Ctx (cv_var c) (cv_start c) (cv_decl c) true else c) :: mark_used pos name l
  end.
(** variable.go:164-175: where it is inserted *)
Definition insert_var (l : list context_var) (c : context_var) : list context_var :=
  let index := if Nat.ltb 0 (length l)
               then sort_search (length l) (fun i => (ComparePos (cv_start c) (cv_start (nth i l c)) <? 0)%Z) else 0%nat in
  firstn index l ++ [c] ++ skipn index l.
(** variable.go:148-178 add *)
Definition table_add (m : var_map) (v : variable) (start : position) (is_declaration : bool) : var_map :=
  let m := if is_declaration then m
           else match vars_get m (v_name v) with
                | Some l => vars_set m (v_name v) (mark_used (r_start (v_range v)) (v_name v) l)
                | None => m
                end in
  let c := Ctx v start is_declaration false in
  match vars_get m (v_name v) with
  | Some l => vars_set m (v_name v) (insert_var l c)
  | None => vars_set m (v_name v) [c]
  end.
(** the element before an index, if it exists (variable.go:185-188, 212-215) *)
Definition before_index (l : list context_var) (index : nat) : option variable :=
  match index with
  | O => None
  | S i => option_map cv_var (nth_error l i)
  end.
(** variable.go:180-191 get *)
Definition table_get (m : var_map) (name : gostr) (pos : position) : option variable :=
  match vars_get m name with
  | Some l => before_index l (sort_search (length l) (fun i =>
      match nth_error l i with Some c => (ComparePos pos (cv_start c) <? 0)%Z | None => true end))
  | None => None
  end.
(** variable.go:203-218 GetVariables *)
Definition GetVariables (m : var_map) (pos : position) : list variable :=
  flat_map (fun e => match snd e with
    | [] => []
    | l => match before_index l (sort_search (length l) (fun i =>
             match nth_error l i with Some c => (0 <=? ComparePos (cv_start c) pos)%Z | None => true end)) with
           | Some v => [v]
           | None => []
           end
    end) m.
(** variable.go:224-234 unusedVariables *)
Definition table_unused (m : var_map) : list variable :=
  flat_map (fun e => map cv_var (List.filter (fun c => cv_decl c && negb (cv_used c)) (snd e))) m.

(** ** The tables of a document *)
(** variable.go:131-137; the children are numbers of tables *)
Record var_table := Table { vt_range : range; vt_vars : var_map; vt_children : list nat }.
(** every table that was made, in order, and the stack [variableTables], the
    last element is the current one *)
Record var_doc := VarDoc { vd_tables : list var_table; vd_stack : list nat }.

Definition set_table (ts : list var_table) (i : nat) (f : var_table -> var_table) : list var_table :=
  match nth_error ts i with
  | Some t => firstn i ts ++ f t :: skipn (S i) ts
  | None => ts
  end.
Definition current (d : var_doc) : option nat := match rev (vd_stack d) with i :: _ => Some i | [] => None end.
(** document.go:302-309 pushVariableTable (the level is the height of the stack) *)
Definition push_table (d : var_doc) (r : range) : var_doc :=
  let i := length (vd_tables d) in
  let ts := match current d with
            | Some p => set_table (vd_tables d) p (fun t => Table (vt_range t) (vt_vars t) (vt_children t ++ [i]))
            | None => vd_tables d
            end in
  VarDoc (ts ++ [Table r [] []]) (vd_stack d ++ [i]).
(** document.go:311-317 popVariableTable *)
Definition pop_table (d : var_doc) : var_doc := VarDoc (vd_tables d) (removelast (vd_stack d)).
(** add to the table number [i] *)
Definition add_to (d : var_doc) (i : nat) (v : variable) (start : position) (is_declaration : bool) : var_doc :=
  VarDoc (set_table (vd_tables d) i (fun t => Table (vt_range t) (table_add (vt_vars t) v start is_declaration) (vt_children t))) (vd_stack d).

(** what the analysis does to the tables *)
Inductive var_op :=
| OpenScope (r : range)                                        (* a function, method or closure starts *)
| CloseScope
| RecordVar (v : variable) (start : position) (is_declaration : bool) (* document.go:343-353 pushVariable *)
| Capture (v : variable).                                      (* a closure's use ($v), anonymousFunction.go:94-95 *)
Definition var_step (d : var_doc) (op : var_op) : var_doc :=
  match op with
  | OpenScope r => push_table d r
  | CloseScope => pop_table d
  | RecordVar v start is_declaration =>
      match current d with Some i => add_to d i v start is_declaration | None => d end
  | Capture v =>
      match rev (vd_stack d) with
      | i :: j :: _ => add_to (add_to d i v (r_end (v_range v)) true) j v (r_end (v_range v)) false
      | _ => d
      end
  end.
(** document.go:93-98: loading starts with the table of the whole document *)
Definition LoadTables (root : range) (ops : list var_op) : var_doc :=
  fold_left var_step ops (push_table (VarDoc [] []) root).

(** document.go:675-685 UnusedVariables: the queue; [fuel] is the number of
    tables *)
Fixpoint unused_loop (fuel : nat) (ts : list var_table) (queue : list nat) : list variable :=
  match fuel with
  | O => []
  | S fuel =>
      match queue with
      | [] => []
      | i :: queue =>
          match nth_error ts i with
          | Some t => table_unused (vt_vars t) ++ unused_loop fuel ts (queue ++ vt_children t)
          | None => unused_loop fuel ts queue
          end
      end
  end.
Definition UnusedVariables (d : var_doc) : list variable :=
  unused_loop (length (vd_tables d)) (vd_tables d) (vd_stack d).

(** document.go:324-341 GetVariableTableAt; every child has a greater number
    than its parent, [fuel] is the number of tables *)
Fixpoint find_table (fuel : nat) (ts : list var_table) (pos : position) (i : nat) : nat :=
  match fuel with
  | O => i
  | S fuel =>
      match nth_error ts i with
      | Some t =>
          match find (fun c => match nth_error ts c with Some t => (IsInRange pos (vt_range t) =? 0)%Z | None => false end) (vt_children t) with
          | Some c => find_table fuel ts pos c
          | None => i
          end
      | None => i
      end
  end.
Definition GetVariableTableAt (d : var_doc) (pos : position) : option nat :=
  match vd_stack d with
  | i :: _ => Some (find_table (length (vd_tables d)) (vd_tables d) pos i)
  | [] => None
  end.
