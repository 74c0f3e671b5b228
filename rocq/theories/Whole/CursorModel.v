(** "Find references" at a place in a document: internal/lsp/reference.go. *)
From Coq Require Import String.
From Coq Require Import List Bool ZArith.
From Coq.Strings Require Import Byte.
From Verif Require Import Base.Bytes Base.Protocol Symbols.Symbols Symbols.KeysModel Text.TextModel Text.PositionModel Types.TypesModel
  Types.ImportModel Rpc.StreamModel Analyse.SyntaxModel Analyse.AnalyseModel Analyse.RefModel
  Storage.KvModel Store.FilterModel Store.StoreModel.
Import ListNotations.
Open Scope list_scope.
Open Scope nat_scope.

(** document.go:425-436 NodeSpineAt, util/traverser.go:94-114 realTraverse: the
    last token with the offset inside it or at its end, and the phrases above it,
    the innermost first. A parse error is neither a token nor a phrase here. *)
Fixpoint spine_at (offset : Z) (found : option (list node * token)) (n : node) (spine : list node) : option (list node * token) :=
  match n with
  | Tk t => if (Z.of_nat (t_offset t) <? offset)%Z && (offset <=? Z.of_nat (t_end t))%Z then Some (spine, t) else found
  | Ph _ kids => fold_left (fun found k => spine_at offset found k (n :: spine)) kids found
  | Err _ => found
  end.
Definition NodeSpineAt (d : document) (offset : Z) : option (list node * token) := spine_at offset None (d_root d) [].

(** expression.go:40-44 HasTypes: the symbols that implement it *)
Definition has_types (k : akind) : bool :=
  match k with
  | ADefine | AClassTypeDesignator | AFunctionCall | AConstantAccess | AScopedPropertyAccess | AScopedMethodAccess | AScopedConstantAccess
  | AClassAccess | AInterfaceAccess | ATraitAccess | ATypeDeclaration | AVariable | APropertyAccess | AMethodAccess | ADerived => true
  | _ => false
  end.
(** document.go:445-462 HasTypesAtPos with symbol.go:111-143 traverseDocument,
    traverseBlock. The state is what was found and shouldStop; stopDescent is only
    ever set for the symbol itself, so its children are left out instead. *)
Fixpoint types_at (pos : position) (found : option adata * bool) (s : asym) : option adata * bool :=
  match s with
  | ASym a kids =>
      if snd found then found else
      let rel := IsInRange pos (a_range a) in
      if (rel =? 0)%Z || ((0 <? rel)%Z && (ComparePos pos (r_end (a_range a)) =? 0)%Z)
      then fold_left (types_at pos) kids (if has_types (a_kind a) then Some a else fst found, false)
      else if (rel <? 0)%Z then (fst found, true)
      else if (0 <? rel)%Z then found
      else fold_left (types_at pos) kids found
  end.
Definition HasTypesAtPos (syms : list asym) (pos : position) : option adata := fst (fold_left (types_at pos) syms (None, false)).

Section Handler.
Context {TX : Text} {X : XorFilter}.
(** reference.go: "results = append(results, store.GetReferences(ref)...)" for
    each of some names *)
Definition ask_all (st : store) (refs : list gostr) : option (list location) := concat_opt (map (GetReferences st) refs).
Definition ask_for (st : store) (ref : option gostr) : option (list location) := match ref with Some ref => GetReferences st ref | None => None end.
(** reference.go:41-47 fallbackHandler *)
Definition fallback (st : store) (s : state) (pos : position) : option (list location) :=
  match HasTypesAtPos (st_out s) pos with
  | Some a => match SymToRefs (st_imports s) a with Some refs => ask_all st refs | None => None end
  | None => Some []
  end.
(** reference.go:71-73,77-78: the import table for the name of a declaration. The
    token is passed to NodeRange by value, which finds a token only behind a
    pointer (util/parser.go:8-36), so the position is the zero position. *)
Definition declaration_table (s : state) : option ImportTable := ImportTableAtPos (st_imports s) zero_pos.
(** reference.go:28-86 references, for the document [d] with the analysis [s];
    [None]: a panic *)
Definition references (st : store) (d : document) (s : state) (pos : position) : option (list location) :=
  match OffsetAtPosition (d_text d) pos with
  | None => None
  | Some offset =>
      match NodeSpineAt d offset with
      | Some ((Ph PhIdentifier _ as parent) :: above, _) =>
          match above with
          | Ph PhMethodDeclarationHeader _ :: _ => ask_for st (option_map (fun text => B "." ++ text ++ B "()") (GetNodeText d parent))
          | Ph PhClassConstElement _ :: _ => ask_for st (option_map (fun text => B "." ++ text) (GetNodeText d parent))
          | _ => fallback st s pos
          end
      | Some ((Ph PhPropertyElement _ as parent) :: _, _) => ask_for st (option_map (fun text => B "." ++ text) (GetNodeText d parent))
      | Some (Ph (PhClassDeclarationHeader | PhInterfaceDeclarationHeader | PhTraitDeclarationHeader) _ :: _, t) =>
          match getTokenText d t, declaration_table s with
          | Some text, Some table => ask_for st (option_map (fun name => ts_fqn (SetNamespace name (GetNamespace table))) (NewTypeString text))
          | _, _ => None
          end
      | Some (Ph PhFunctionDeclarationHeader _ :: _, t) =>
          match getTokenText d t, declaration_table s with
          | Some text, Some table =>
              match NewTypeString text with
              | Some name => ask_all st (map (fun fqn => fqn ++ B "()") (FunctionPossibleFQNs table name))
              | None => None
              end
          | _, _ => None
          end
      | _ => fallback st s pos
      end
  end.
End Handler.
