(** The outline of an analysed file: internal/lsp/symbol.go:10-130 for the
    symbols of Analyse/AnalyseModel.v. *)
From Coq Require Import String.
From Coq Require Import List Bool ZArith.
From Verif Require Import Base.Bytes Base.Protocol Symbols.Symbols Ide.TreeModel Analyse.SyntaxModel Analyse.AnalyseModel.
Import ListNotations.
Open Scope list_scope.

(** the Go type of a symbol, as far as the outline tells them apart *)
Definition outline_kind (k : akind) : sym_kind :=
  match k with
  | AClass => KClass | AInterface => KInterface | ATrait => KTrait | AFunction => KFunction | AMethod => KMethod
  | AProperty => KProperty | AConst => KConst | AClassConst => KClassConst | ADefine => KDefine
  | AArgumentList => KArgumentList | AClassTypeDesignator => KClassTypeDesignator
  | _ => KOther
  end.
(** GetName: class.go:195-197, trait.go:64-66, const.go:73-75, define.go:57-59,
    classConst.go:114-116; Name.GetOriginal() and Name for the others
    (symbol.go:89-118) *)
Definition outline_name (a : adata) : gostr :=
  match a_kind a with
  | AConst | ADefine => ts_fqn (a_name a)
  | _ => ts_original (a_name a)
  end.
(** analysis/symbol.go:51-54 BlockSymbol: the types with GetChildren *)
Definition is_block (k : akind) : bool :=
  match k with
  | AClass | AInterface | ATrait | AFunction | AMethod | AAnonymousFunction | AArgumentList | AClassTypeDesignator | ADefine | ADerived => true
  | _ => false
  end.
Section Outline.
(** GetDescription, which reads the comment [a_doc] *)
Variable description : adata -> gostr.
Fixpoint symbol_of (s : asym) : symbol :=
  match s with
  | ASym a kids => Sym (Data (outline_kind (a_kind a)) (outline_name a) (description a) (a_range a) false)
      (if is_block (a_kind a) then map symbol_of kids else [])
  end.
(** internal/lsp/symbol.go:27-52 documentSymbol, for a document with the analysis [s] *)
Definition file_outline (s : state) : list doc_symbol := documentSymbol (map symbol_of (st_out s)).
End Outline.
