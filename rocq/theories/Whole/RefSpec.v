(** From the text of files to the answer of "find references". *)
From Coq Require Import String.
From Coq Require Import List Bool ZArith.
From Coq.Strings Require Import Byte.
From Verif Require Import Base.Bytes Base.Utf8 Base.Protocol Symbols.Symbols Symbols.KeysModel Types.TypesModel
  Types.ImportModel Rpc.StreamModel Analyse.SyntaxModel Analyse.AnalyseModel Analyse.AnalyseSpec Analyse.DeclareSpec Analyse.UseSpec Analyse.RefModel
  Storage.KvModel Store.FilterModel Store.StoreModel Store.StoreSpec Whole.IndexSpec.
Import ListNotations.
Open Scope list_scope.
Open Scope nat_scope.

(** the file [f] was analysed and handed to the store as [sd], with its
    references: store.go:498-556 writeAllSymbols *)
Definition handed {TX : Text} {TR : TrimSpace} (sd : doc) (f : document) (s : state) : Prop :=
  analyse f = Done tt s /\ Forall2 (hands_over (d_uri sd)) (kept_symbols (st_out s)) (d_symbols sd) /\
  exists entries, d_refs sd = concat entries /\ Forall2 (enters (d_uri sd) (st_imports s)) (flat_map preorder (st_out s)) entries.

(** valid UTF-8 *)
Inductive valid_utf8 : gostr -> Prop :=
| valid_nil : valid_utf8 []
| valid_rune : forall s r w, s <> [] -> decode_rune s = (r, w) -> ~ (r = RuneError /\ w = 1) -> valid_utf8 (skipn w s) -> valid_utf8 s.

(** The name under which the uses of a member are kept: a method has brackets
    behind its name, a property a dollar in front of it. *)
Definition method_ref (name : gostr) : gostr := B "." ++ name ++ B "()".
Definition property_ref (name : gostr) : gostr := B ".$" ++ name.
Definition constant_ref (name : gostr) : gostr := B "." ++ name.
(** [name], as it is written where it is used in the way [k], is the member kept as [ref] *)
Definition member_use (k : akind) (name ref : gostr) : Prop :=
  match k with
  | AMethodAccess | AScopedMethodAccess => ref = method_ref name
  | APropertyAccess => valid_utf8 name /\ ref = property_ref name /\ name <> [] /\ hd_error name <> Some DOLLAR
  | AScopedPropertyAccess => exists n, name = B "$" ++ n /\ ref = property_ref n
  | AScopedConstantAccess => ref = constant_ref name
  | _ => False
  end.

(** ** What an entry of the index is for *)
(** [a] is a declaration of [ref] *)
Definition declares_ref (a : adata) (ref : gostr) : Prop :=
  match a_kind a with
  | AClass | AInterface => ref = ts_fqn (a_name a)
  | AFunction => ref = ts_fqn (a_name a) ++ B "()"
  | AMethod => ref = method_ref (ts_fqn (a_name a))
  | AProperty | AClassConst => ref = B "." ++ ts_fqn (a_name a)
  | _ => False
  end.
(** [a] is a use of [ref]: of a class by its full name, of a function by a full
    name its name can stand for, of a member by its name *)
Definition uses_ref (a : adata) (ref : gostr) : Prop :=
  match a_kind a with
  | AClassTypeDesignator | ATypeDeclaration | ATraitAccess | AInterfaceAccess | AClassAccess => exists t, In t (a_types a) /\ ref = ts_fqn t
  | AFunctionCall => exists table name fqn, NewTypeString (ts_original (a_name a)) = Some name /\ In fqn (FunctionPossibleFQNs table name) /\ ref = fqn ++ B "()"
  | AMethodAccess | AScopedMethodAccess => ref = method_ref (ts_original (a_name a))
  | AScopedPropertyAccess | AScopedConstantAccess => ref = constant_ref (ts_original (a_name a))
  | APropertyAccess => exists n, ref = B "." ++ n /\ (valid_utf8 (ts_original (a_name a)) -> n = ts_original (a_name a) \/ n = B "$" ++ ts_original (a_name a))
  | _ => False
  end.
