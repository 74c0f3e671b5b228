(** Where each symbol kind is stored: collections, keys, serialised value, and
    the name completion indexes it under. *)
From Coq Require Import String.
From Coq Require Import List Bool NArith ZArith.
From Coq.Strings Require Import Byte.
From Verif Require Import Base.Bytes Base.Utf8 Base.Decimal Base.Protocol Codec.CodecModel
  Codec.SymbolCodecModel Symbols.Symbols Words.TokeniserModel.
Import ListNotations.
Open Scope list_scope.

(** The parts of Go's package unicode (tables) the code calls. *)
Class Text := {
  to_lower : gostr -> gostr;      (* strings.ToLower *)
  is_upper : N -> bool;           (* unicode.IsUpper *)
  is_digit : N -> bool            (* unicode.IsDigit *)
}.

(** store.go:58-59 KeySep *)
Definition KeySep : gostr := [NUL].

(** the symbols that implement serialisable (symbol.go:88-92) *)
Inductive symbol :=
| SClass (s : class) | SInterface (s : interface) | STrait (s : trait)
| SFunction (s : function) | SConst (s : const) | SDefine (s : define)
| SMethod (s : method) | SClassConst (s : class_const)
| SProperty (s : property) | SGlobalVariable (s : global_variable).

(** store.go:26-35 *)
Definition classCollection := B "cla".
Definition interfaceCollection := B "int".
Definition traitCollection := B "tra".
Definition functionCollection := B "fun".
Definition constCollection := B "con".
Definition defineCollection := B "def".
Definition methodCollection := B "met".
Definition classConstCollection := B "claCon".
Definition propertyCollection := B "pro".
Definition globalVariableCollection := B "gloVar".

(** GetCollection: class.go:203, interface.go:107, trait.go:73,
    function.go:134, const.go:81, define.go:110, method.go:184,
    classConst.go:122, property.go:133, globalVariable.go:88 *)
Definition GetCollection (s : symbol) : gostr :=
  match s with
  | SClass _ => classCollection
  | SInterface _ => interfaceCollection
  | STrait _ => traitCollection
  | SFunction _ => functionCollection
  | SConst _ => constCollection
  | SDefine _ => defineCollection
  | SMethod _ => methodCollection
  | SClassConst _ => classConstCollection
  | SProperty _ => propertyCollection
  | SGlobalVariable _ => globalVariableCollection
  end.

(** protocol.go:2817-2823 Position.String *)
Definition Position_String (p : position) : gostr := Itoa (p_line p) ++ B ":" ++ Itoa (p_char p).
(** protocol.go:2851-2857 Range.String *)
Definition Range_String (r : range) : gostr :=
  Position_String (r_start r) ++ B "-" ++ Position_String (r_end r).

(** symbolType.go:86-88 *)
Definition ts_IsEmpty (t : type_string) : bool :=
  str_eqb (ts_fqn t) [] || str_eqb (ts_fqn t) [BSL].
(** symbolType.go:275-287 TypeComposite.IsEmpty *)
Definition tc_IsEmpty (t : type_composite) : bool :=
  (length t =? 0)%nat || forallb ts_IsEmpty t.

Section Keys.
Context {T : Text}.

(** class.go:209-215 *)
Definition GetClassFQNLowerCase (fqn : gostr) : gostr :=
  match last_index_byte fqn BSL with
  | Some i => firstn i fqn ++ [BSL] ++ to_lower (skipn (i + 1) fqn)
  | None => fqn
  end.

(** GetKey: class.go:217, interface.go:111, trait.go:77, function.go:138,
    const.go:85, define.go:114, method.go:188, classConst.go:126,
    property.go:137, globalVariable.go:92 *)
Definition GetKey (s : symbol) : gostr :=
  match s with
  | SClass s => GetClassFQNLowerCase (ts_fqn (c_name s)) ++ KeySep ++ l_uri (c_location s)
  | SInterface s => ts_fqn (i_name s) ++ KeySep ++ l_uri (i_location s)
  | STrait s => ts_fqn (t_name s) ++ KeySep ++ l_uri (t_location s)
  | SFunction s => ts_fqn (f_name s) ++ KeySep ++ l_uri (f_location s)
  | SConst s => ts_fqn (k_name s) ++ KeySep ++ l_uri (k_location s)
  | SDefine s => ts_fqn (d_name s) ++ KeySep ++ l_uri (d_location s)
  | SMethod s => ts_fqn (m_scope s) ++ KeySep ++ to_lower (m_name s) ++ KeySep ++ l_uri (m_location s)
  | SClassConst s => ts_fqn (cc_scope s) ++ KeySep ++ cc_name s
  | SProperty s => ts_fqn (pr_scope s) ++ KeySep ++ pr_name s ++ KeySep
                   ++ l_uri (pr_location s) ++ Range_String (l_range (pr_location s))
  | SGlobalVariable s =>
      if tc_IsEmpty (g_types s) then [] else g_name s ++ KeySep ++ l_uri (g_location s)
  end.

(** Serialise of each kind (see SymbolCodecModel.v) *)
Definition Serialise (s : symbol) : gostr :=
  match s with
  | SClass s => Class_Serialise NewEncoder s
  | SInterface s => Interface_Serialise NewEncoder s
  | STrait s => Trait_Serialise NewEncoder s
  | SFunction s => Function_Serialise NewEncoder s
  | SConst s => Const_Serialise NewEncoder s
  | SDefine s => Define_Serialise NewEncoder s
  | SMethod s => Method_Serialise NewEncoder s
  | SClassConst s => ClassConst_Serialise NewEncoder s
  | SProperty s => Property_Serialise NewEncoder s
  | SGlobalVariable s => GlobalVariable_Serialise NewEncoder s
  end.

(** property.go:141-146: drops the first rune, the "$".  Simplification:
    re-encoding the remaining runes is the identity on well-formed UTF-8; for
    ill-formed bytes Go substitutes U+FFFD and the model keeps the bytes. *)
Definition drop_rune (name : gostr) : gostr :=
  match name with
  | [] => []
  | _ => skipn (snd (decode_rune name)) name
  end.

(** store.go:41-50 *)
Definition functionCompletionIndex := B "funCom".
Definition constCompletionIndex := B "conCom".
Definition defineCompletionIndex := B "defCom".
Definition classCompletionIndex := B "claCom".
Definition interfaceCompletionIndex := B "intCom".
Definition traitCompletionIndex := B "traCom".
Definition methodCompletionIndex := B "metCom".
Definition propertyCompletionIndex := B "proCom".
Definition classConstCompletionIndex := B "claConCom".
Definition namespaceCompletionIndex := B "namCom".

(** NameIndexable (symbol.go:57-61): GetIndexCollection and GetIndexableName of
    each kind; a global variable is not indexed *)
Definition indexable (s : symbol) : option (gostr * gostr) :=
  match s with
  | SClass s => Some (classCompletionIndex, ts_original (c_name s))
  | SInterface s => Some (interfaceCompletionIndex, ts_original (i_name s))
  | STrait s => Some (traitCompletionIndex, ts_original (t_name s))
  | SFunction s => Some (functionCompletionIndex, ts_original (f_name s))
  | SConst s => Some (constCompletionIndex, ts_original (k_name s))
  | SDefine s => Some (defineCompletionIndex, ts_original (d_name s))
  | SMethod s => Some (methodCompletionIndex, m_name s)
  | SClassConst s => Some (classConstCompletionIndex, cc_name s)
  | SProperty s => Some (propertyCompletionIndex, drop_rune (pr_name s))
  | SGlobalVariable _ => None
  end.

(** symbolType.go:109-119 TypeString.GetNamespace *)
Definition ts_GetNamespace (t : type_string) : gostr :=
  match last_index_byte (ts_fqn t) BSL with
  | None => [BSL]
  | Some O => [BSL]
  | Some i => firstn i (ts_fqn t)
  end.

(** HasScope.GetScope (symbol.go:69-72): class.go:229, interface.go:123, function.go:150,
    method.go:213, classConst.go:138, property.go:152.  Traits, constants,
    defines and global variables do not implement it. *)
Definition GetScope (s : symbol) : option gostr :=
  match s with
  | SClass s => Some (ts_GetNamespace (c_name s))
  | SInterface s => Some (ts_GetNamespace (i_name s))
  | SFunction s => Some (ts_GetNamespace (f_name s))
  | SMethod s => Some (ts_fqn (m_scope s))
  | SClassConst s => Some (ts_fqn (cc_scope s))
  | SProperty s => Some (ts_fqn (pr_scope s))
  | STrait _ | SConst _ | SDefine _ | SGlobalVariable _ => None
  end.

(** store.go:66-71 newEntry: the key of an entry *)
Definition newEntry (collection key : gostr) : gostr := collection ++ KeySep ++ key.

End Keys.
