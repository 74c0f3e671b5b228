(** The references of a file: the names under which its symbols are entered in
    the reference index. *)
From Coq Require Import String.
From Coq Require Import List Bool ZArith.
From Coq.Strings Require Import Byte.
From Verif Require Import Base.Bytes Base.Utf8 Base.Protocol Base.SortSearch Symbols.Symbols Symbols.KeysModel Text.TextModel Text.PositionModel
  Types.TypesModel Types.ImportModel Rpc.StreamModel Analyse.SyntaxModel Analyse.AnalyseModel Store.StoreModel.
Import ListNotations.
Open Scope list_scope.
Open Scope nat_scope.

(** [string([]rune(s))]: a byte that is not part of a valid encoding becomes
    U+FFFD, anything else stays *)
Fixpoint through_runes (fuel : nat) (s : gostr) : gostr :=
  match fuel, s with
  | S fuel, _ :: _ =>
      let (r, w) := decode_rune s in
      (if N.eqb r RuneError && (w =? 1) then [xef; xbf; xbd] else firstn w s) ++ through_runes fuel (skipn w s)
  | _, _ => []
  end.
Definition string_of_runes_of (s : gostr) : gostr := through_runes (length s) s.

Definition DOLLAR : byte := x24.
(** MemberName: methodAccess.go:103-105, scopedMethodAccess.go:98-100,
    propertyAccess.go:68-74, scopedPropertyAccess.go:73-75,
    scopedConstantAccess.go:49-51. [None]: not a HasTypesHasScope. *)
Definition MemberName (a : adata) : option gostr :=
  let name := ts_original (a_name a) in
  match a_kind a with
  | AMethodAccess | AScopedMethodAccess => Some (name ++ B "()")
  | APropertyAccess =>
      Some (match name with
            | b :: _ => if byte_eqb b DOLLAR then string_of_runes_of name else DOLLAR :: string_of_runes_of name
            | [] => []
            end)
  | AScopedPropertyAccess | AScopedConstantAccess => Some name
  | _ => None
  end.

(** document.go:659-668 ImportTableAtPos. [None]: the panic of index 0 in no
    tables. *)
Definition ImportTableAtPos (tables : list ImportTable) (pos : position) : option ImportTable :=
  let index := sort_search (length tables) (fun i => match nth_error tables i with Some t => (ComparePos pos (start t) <=? 0)%Z | None => false end) in
  nth_error tables (if index =? 0 then 0 else index - 1).

(** store.go:1128-1153 SymToRefs; the symbols that are not HasTypes have no
    references either. *)
Definition SymToRefs (tables : list ImportTable) (a : adata) : option (list gostr) :=
  match a_kind a with
  | AFunctionCall =>
      match ImportTableAtPos tables (r_start (a_range a)), NewTypeString (ts_original (a_name a)) with
      | Some table, Some name => Some (map (fun fqn => fqn ++ B "()") (FunctionPossibleFQNs table name))
      | _, _ => None
      end
  | AClassTypeDesignator | ATypeDeclaration | ATraitAccess | AInterfaceAccess => Some (map ts_fqn (a_types a))
  | AClassAccess => Some (if IsNameRelative (ts_original (a_name a)) then [] else map ts_fqn (a_types a))
  | _ => Some (match MemberName a with Some m => [B "." ++ m] | None => [] end)
  end.

(** ReferenceFQN: class.go:289-291, interface.go:165-167, function.go:203-205,
    method.go:269-271, property.go:185-187, classConst.go:166-168. [None]: not a
    SymbolReference. *)
Definition ReferenceFQN (a : adata) : option gostr :=
  match a_kind a with
  | AClass | AInterface => Some (ts_fqn (a_name a))
  | AFunction => Some (ts_fqn (a_name a) ++ B "()")
  | AMethod => Some (B "." ++ ts_fqn (a_name a) ++ B "()")
  | AProperty | AClassConst => Some (B "." ++ ts_fqn (a_name a))
  | _ => None
  end.

(** store.go:537-553, the part of writeAllSymbols that makes the entries of one
    symbol. The place of the name of a declaration (ReferenceLocation) is not in
    the model of the analysis and left open. *)
Definition enters (u : gostr) (tables : list ImportTable) (a : adata) (l : list entry_info) : Prop :=
  exists own others refs, l = own ++ others /\
    match ReferenceFQN a with Some ref => exists r, own = [EntryInfo ref r] | None => own = [] end /\
    SymToRefs tables a = Some refs /\
    others = if haveReferences u then map (fun ref => EntryInfo ref (a_range a)) refs else [].
