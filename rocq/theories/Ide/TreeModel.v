(** Walking trees: util/traverser.go:87-114 (the syntax tree),
    analysis/symbol.go:102-163 (the symbols of a document) and what is built on
    them in analysis/document.go and internal/lsp/symbol.go. *)
From Coq Require Import String.
From Coq Require Import List Bool ZArith.
From Verif Require Import Base.Bytes Base.Protocol Base.SortSearch Text.PositionModel.
Import ListNotations.
Open Scope list_scope.

(** ** The syntax tree *)
(** A node is a phrase or a token (go-phpparser). Only the kind of a phrase and
    the type, offset and length of a token are kept. *)
Inductive ast :=
| Phrase (kind : nat) (kids : list ast)
| Token (type offset length : nat).

(** util/traverser.go:94-114 Traverse, realTraverse. A visitor sees a node and
    the phrases above it, outermost first, and says whether to go below the
    node; [S] is what it keeps in its closure.
    Simplified: a visitor does not replace the node to go below (AscendNode,
    traverser.go:104-106); no visitor of phpintel does. The slice [spine] is a
    list: appends below a node write behind its end only. *)
Fixpoint realTraverse {S : Type} (visit : S -> ast -> list ast -> S * bool) (s : S) (node : ast) (spine : list ast) : S :=
  let (s, should_ascend) := visit s node spine in
  if should_ascend then
    match node with
    | Phrase _ kids =>
        (fix each (s : S) (kids : list ast) : S :=
           match kids with
           | [] => s
           | k :: kids => each (realTraverse visit s k (spine ++ [node])) kids
           end) s kids
    | Token _ _ _ => s
    end
  else s.
Definition Traverse {S : Type} (visit : S -> ast -> list ast -> S * bool) (s : S) (root : ast) : S := realTraverse visit s root [].

(** document.go:425-436 NodeSpineAt: the token (if any) and the phrases above it *)
Definition spine_visitor (offset : nat) (found : list ast * option ast) (node : ast) (spine : list ast) : (list ast * option ast) * bool :=
  match node with
  | Token _ off len => if Nat.ltb off offset && Nat.leb offset (off + len) then ((spine, Some node), false) else (found, true)
  | Phrase _ _ => (found, true)
  end.
Definition NodeSpineAt (root : ast) (offset : nat) : list ast * option ast := Traverse (spine_visitor offset) ([], None) root.

(** ** Symbols *)
(** The Go types that are told apart here *)
Inductive sym_kind := KClass | KInterface | KTrait | KConst | KClassConst | KDefine | KFunction | KMethod | KProperty | KArgumentList | KClassTypeDesignator | KOther.
(** analysis/symbol.go Symbol, BlockSymbol: a symbol with its place and, if it
    is a block, its children. [sy_name] is the name it shows, [sy_detail] its
    description, [sy_types] tells whether it is a HasTypes. Simplified: a symbol
    that is not a block is one without children. *)
Record sym_data := Data { sy_kind : sym_kind; sy_name : gostr; sy_detail : gostr; sy_range : range; sy_types : bool }.
Inductive symbol := Sym (data : sym_data) (kids : list symbol).
Definition sy_data (s : symbol) : sym_data := match s with Sym d _ => d end.
Definition sy_kids (s : symbol) : list symbol := match s with Sym _ k => k end.

(** symbol.go:102-143: the flags of the traverser and what the callback keeps *)
Record walk (S : Type) := Walk { w_state : S; w_stop : bool; w_skip : bool }.
Arguments Walk {S}. Arguments w_state {S}. Arguments w_stop {S}. Arguments w_skip {S}.
(** the callback sets flags; it never clears them *)
Inductive answer := GoOn | StopDescent | ShouldStop.
Definition call {S : Type} (fn : S -> symbol -> list symbol -> S * answer) (w : walk S) (s : symbol) (spine : list symbol) : walk S :=
  let (st, a) := fn (w_state w) s spine in
  Walk st (match a with ShouldStop => true | _ => w_stop w end) (match a with StopDescent => true | _ => w_skip w end).
(** symbol.go:123-143 traverseBlock; the deferred function clears stopDescent *)
Fixpoint traverseBlock {S : Type} (fn : S -> symbol -> list symbol -> S * answer) (w : walk S) (s : symbol) (spine : list symbol) : walk S :=
  let w := call fn w s spine in
  if w_stop w then w
  else
    let w := if w_skip w then w
             else match s with
                  | Sym _ kids =>
                      (fix each (w : walk S) (kids : list symbol) : walk S :=
                         match kids with
                         | [] => w
                         | k :: kids =>
                             let w := traverseBlock fn w k (spine ++ [k]) in
                             if w_stop w then w else each w kids
                         end) w kids
                  end in
    Walk (w_state w) (w_stop w) false.
(** symbol.go:111-121 traverseDocument *)
Fixpoint traverse_each {S : Type} (fn : S -> symbol -> list symbol -> S * answer) (w : walk S) (spine : list symbol) (kids : list symbol) : walk S :=
  match kids with
  | [] => w
  | k :: kids =>
      let w := traverseBlock fn w k (spine ++ [k]) in
      if w_stop w then w else traverse_each fn w spine kids
  end.
Definition traverseDocument {S : Type} (fn : S -> symbol -> list symbol -> S * answer) (s : S) (document : list symbol) : S :=
  w_state (traverse_each fn (Walk s false false) [] document).

(** symbol.go:145-163 TraverseDocument, TraverseSymbol: the calls in order *)
Inductive event := Pre (s : symbol) | Post (s : symbol).
Fixpoint TraverseSymbol (s : symbol) : list event :=
  match s with
  | Sym d kids => [Pre s] ++ flat_map TraverseSymbol kids ++ [Post s]
  end.
Definition TraverseDocument (document : list symbol) : list event := flat_map TraverseSymbol document.

(** ** Finding symbols by position *)
Definition class_like (k : sym_kind) : bool := match k with KClass | KInterface | KTrait => true | _ => false end.
(** document.go:365-383 ClassAt *)
Definition class_at_fn (pos : position) (found : option symbol) (s : symbol) (_ : list symbol) : option symbol * answer :=
  let rel := IsInRange pos (sy_range (sy_data s)) in
  if (0 <? rel)%Z then (found, StopDescent)
  else if (rel =? 0)%Z then ((if class_like (sy_kind (sy_data s)) then Some s else found), GoOn)
  else (found, ShouldStop).
Definition ClassAt (document : list symbol) (pos : position) : option symbol := traverseDocument (class_at_fn pos) None document.

(** document.go:445-462 HasTypesAtPos *)
Definition has_types_at_fn (pos : position) (found : option symbol) (s : symbol) (_ : list symbol) : option symbol * answer :=
  let rel := IsInRange pos (sy_range (sy_data s)) in
  let rel_end := ComparePos pos (r_end (sy_range (sy_data s))) in
  if (rel =? 0)%Z || ((0 <? rel)%Z && (rel_end =? 0)%Z) then ((if sy_types (sy_data s) then Some s else found), GoOn)
  else if (rel <? 0)%Z then (found, ShouldStop)
  else if (0 <? rel)%Z then (found, StopDescent)
  else (found, GoOn).
Definition HasTypesAtPos (document : list symbol) (pos : position) : option symbol := traverseDocument (has_types_at_fn pos) None document.

(** document.go:477-496 hasTypesBeforePos *)
Definition has_types_before_fn (pos : position) (found : option symbol) (s : symbol) (_ : list symbol) : option symbol * answer :=
  let rel := IsInRange pos (sy_range (sy_data s)) in
  let found' := if sy_types (sy_data s) then Some s else found in
  if (0 <? rel)%Z then (found', StopDescent)
  else if (rel <? 0)%Z then (found, ShouldStop)
  else (found', GoOn).
Definition HasTypesBeforePos (document : list symbol) (pos : position) : option symbol := traverseDocument (has_types_before_fn pos) None document.

(** document.go:512-542 ArgumentListAndFunctionCallAt: the argument list and
    the symbol whose parameters are shown (whether that symbol can be resolved
    to parameters is left out: it is any HasTypes) *)
Definition arg_list_fn (pos : position) (found : option symbol * option symbol) (s : symbol) (spine : list symbol) : (option symbol * option symbol) * answer :=
  let rel := IsInRange pos (sy_range (sy_data s)) in
  if (rel =? 0)%Z then
    match sy_kind (sy_data s) with
    | KArgumentList =>
        let callee := match rev spine with
                      | _ :: c :: d :: _ =>
                          match sy_kind (sy_data c), sy_kind (sy_data d) with
                          | KClass, KClassTypeDesignator => Some d
                          | _, _ => snd found
                          end
                      | _ => snd found
                      end in
        ((Some s, callee), GoOn)
    | _ => (found, GoOn)
    end
  else if (rel <? 0)%Z then (found, ShouldStop)
  else if (0 <? rel)%Z then (found, StopDescent)
  else (found, GoOn).
Definition ArgumentListAndFunctionCallAt (document : list symbol) (pos : position) : option symbol * option symbol :=
  let found := traverseDocument (arg_list_fn pos) (None, None) document in
  match found with
  | (Some a, None) => (Some a, HasTypesBeforePos document (r_start (sy_range (sy_data a))))
  | _ => found
  end.

(** document.go:415-423 getClassAtPos on the list of classes, interfaces and
    traits in the order in which they were added *)
Definition getClassAtPos (class_stack : list sym_data) (pos : position) : option sym_data :=
  let index := sort_search (length class_stack) (fun i =>
    match nth_error class_stack i with Some c => (IsInRange pos (sy_range c) <=? 0)%Z | None => true end) in
  nth_error class_stack index.
(** document.go:397-413 GetClassScopeAtSymbol; "" is no scope *)
Definition GetClassScopeAt (class_stack : list sym_data) (pos : position) : gostr :=
  match getClassAtPos class_stack pos with
  | Some c => match sy_kind c with KClass | KInterface => sy_name c | _ => [] end
  | None => []
  end.

(** document.go:660-668 ImportTableAtPos: the start of each table, in order;
    the number of the table (there is always one) *)
Definition ImportTableAtPos (starts : list position) (pos : position) : nat :=
  let index := sort_search (length starts) (fun i =>
    match nth_error starts i with Some s => (ComparePos pos s <=? 0)%Z | None => true end) in
  match index with O => 0 | S i => i end.

(** ** The outline (internal/lsp/symbol.go:10-130) *)
(** protocol.SymbolKind: Class 5, Method 6, Property 7, Interface 11, Function
    12, Constant 14; 0 is no kind *)
Definition symbol_kind (k : sym_kind) : nat :=
  match k with
  | KClass => 5 | KConst => 14 | KClassConst => 14 | KDefine => 14 | KFunction => 12
  | KInterface => 11 | KMethod => 6 | KProperty => 7 | KTrait => 5
  | KArgumentList | KClassTypeDesignator | KOther => 0
  end.
Record doc_data := DocData { ds_kind : nat; ds_name : gostr; ds_detail : gostr; ds_range : range; ds_selection : range }.
Inductive doc_symbol := DocSym (data : doc_data) (kids : list doc_symbol).
Definition no_range : range := Rng (Pos 0 0) (Pos 0 0).
(** symbol.go:54-130 symbolToProtocolDocumentSymbol *)
Definition symbolToProtocolDocumentSymbol (d : sym_data) : doc_data :=
  match symbol_kind (sy_kind d) with
  | O => DocData 0 [] [] no_range no_range
  | S _ => DocData (symbol_kind (sy_kind d)) (sy_name d) (sy_detail d) (sy_range d) (sy_range d)
  end.
Definition ds_data (d : doc_symbol) : doc_data := match d with DocSym x _ => x end.
Definition ds_kids (d : doc_symbol) : list doc_symbol := match d with DocSym _ k => k end.
(** what a converted child adds to the list (symbol.go:14-21, 42-49) *)
Definition add_doc_symbol (acc : list doc_symbol) (c : doc_symbol) : list doc_symbol :=
  if Nat.eqb (ds_kind (ds_data c)) 0
  then (if Nat.ltb 0 (length (ds_kids c)) then acc ++ ds_kids c else acc)
  else acc ++ [c].
(** symbol.go:10-25 toDocumentSymbolRecursive *)
Fixpoint toDocumentSymbolRecursive (s : symbol) : doc_symbol :=
  match s with
  | Sym d kids => DocSym (symbolToProtocolDocumentSymbol d) (fold_left add_doc_symbol (map toDocumentSymbolRecursive kids) [])
  end.
(** symbol.go:27-52 documentSymbol *)
Definition documentSymbol (document : list symbol) : list doc_symbol :=
  fold_left add_doc_symbol (map toDocumentSymbolRecursive document) [].

(** ** The active parameter *)
(** argumentList.go:38-72: the ranges between the commas; a comma has a start
    and an end *)
Fixpoint arg_ranges (start : position) (commas : list range) (list_end : position) : list range :=
  match commas with
  | [] => [Rng start list_end]
  | c :: commas => Rng start (r_start c) :: arg_ranges (r_end c) commas list_end
  end.
(** signature.go:47-50 *)
Definition ActiveParameter (ranges : list range) (pos : position) : nat :=
  sort_search (length ranges) (fun i => match nth_error ranges i with Some r => (IsInRange pos r <=? 0)%Z | None => true end).
