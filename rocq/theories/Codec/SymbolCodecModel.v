(** Serialise / Read of the ten persisted symbol kinds. *)
From Coq Require Import String.
From Coq Require Import List Bool ZArith.
From Coq.Strings Require Import Byte.
From Verif Require Import Base.Bytes Base.Protocol Codec.CodecModel Symbols.Symbols.
Import ListNotations.
Open Scope Z_scope.
Open Scope dec_scope.

(** symbolType.go:168-172 *)
Definition TypeString_Write (e : enc) (t : type_string) : enc :=
  let e := WriteString e (ts_original t) in
  let e := WriteString e (ts_fqn t) in
  WriteInt e (ts_array t).

(** symbolType.go:174-180 (composite literal fields are evaluated in source order) *)
Definition ReadTypeString : dec type_string :=
  original <- ReadString ;; fqn <- ReadString ;; level <- ReadInt ;;
  ret (TS fqn original level).

(** symbolType.go:254-259 and 261-268 *)
Definition TypeComposite_Write (e : enc) (t : type_composite) : enc :=
  write_list TypeString_Write e t.
Definition ReadTypeComposite : dec type_composite := read_list ReadTypeString.

(** phpDocComment.go:398-406 *)
Definition serialiseDeprecatedTag (e : enc) (t : option tag) : enc :=
  match t with
  | None => WriteBool e false
  | Some t =>
      let e := WriteBool e true in
      let e := WriteString e (tg_name t) in
      WriteString e (tg_description t)
  end.

(** phpDocComment.go:408-417 *)
Definition deserialiseDeprecatedTag : dec (option tag) :=
  b <- ReadBool ;;
  if b : bool then
    name <- ReadString ;; descr <- ReadString ;;
    ret (Some (Tag (B "@deprecated") name descr [] [] false zero_loc))
  else ret None.

(** parameter.go:103-110 *)
Definition Parameter_Write (e : enc) (s : parameter) : enc :=
  let e := WriteLocation e (pa_location s) in
  let e := WriteLocation e (pa_varlocation s) in
  let e := WriteBool e (pa_hasvalue s) in
  let e := WriteString e (pa_name s) in
  let e := TypeComposite_Write e (pa_type s) in
  WriteString e (pa_value s).

(** parameter.go:112-121 *)
Definition ReadParameter : dec parameter :=
  loc <- ReadLocation ;; vloc <- ReadLocation ;; hasv <- ReadBool ;;
  name <- ReadString ;; ty <- ReadTypeComposite ;; value <- ReadString ;;
  ret (Param loc vloc [] hasv name ty value).

(** class.go:237-253 *)
Definition Class_Serialise (e : enc) (s : class) : enc :=
  let e := WriteLocation e (c_location s) in
  let e := WriteLocation e (c_refloc s) in
  let e := WriteInt e (c_modifier s) in
  let e := WriteString e (c_description s) in
  let e := TypeString_Write e (c_name s) in
  let e := TypeString_Write e (c_extends s) in
  let e := write_list TypeString_Write e (c_interfaces s) in
  let e := write_list TypeString_Write e (c_use s) in
  serialiseDeprecatedTag e (c_deprecated s).

(** class.go:255-274 *)
Definition ReadClass : dec class :=
  loc <- ReadLocation ;; refloc <- ReadLocation ;; modifier <- ReadInt ;;
  descr <- ReadString ;; name <- ReadTypeString ;; ext <- ReadTypeString ;;
  ifaces <- read_list ReadTypeString ;; uses <- read_list ReadTypeString ;;
  depr <- deserialiseDeprecatedTag ;;
  ret (Class descr refloc loc modifier name ext ifaces uses depr).

(** interface.go:131-140 *)
Definition Interface_Serialise (e : enc) (s : interface) : enc :=
  let e := WriteLocation e (i_location s) in
  let e := TypeString_Write e (i_name s) in
  let e := write_list TypeString_Write e (i_extends s) in
  let e := WriteString e (i_description s) in
  serialiseDeprecatedTag e (i_deprecated s).

(** interface.go:142-154 *)
Definition ReadInterface : dec interface :=
  loc <- ReadLocation ;; name <- ReadTypeString ;;
  ext <- read_list ReadTypeString ;; descr <- ReadString ;;
  depr <- deserialiseDeprecatedTag ;;
  ret (Interface loc zero_loc descr depr name ext).

(** trait.go:89-92 *)
Definition Trait_Serialise (e : enc) (s : trait) : enc :=
  let e := WriteLocation e (t_location s) in
  TypeString_Write e (t_name s).

(** trait.go:94-99 *)
Definition ReadTrait : dec trait :=
  loc <- ReadLocation ;; name <- ReadTypeString ;; ret (Trait loc name).

(** function.go:166-176 *)
Definition Function_Serialise (e : enc) (s : function) : enc :=
  let e := WriteLocation e (f_location s) in
  let e := TypeString_Write e (f_name s) in
  let e := write_list Parameter_Write e (f_params s) in
  let e := TypeComposite_Write e (f_return s) in
  let e := WriteString e (f_description s) in
  serialiseDeprecatedTag e (f_deprecated s).

(** function.go:178-192 *)
Definition ReadFunction : dec function :=
  loc <- ReadLocation ;; name <- ReadTypeString ;;
  params <- read_list ReadParameter ;; rets <- ReadTypeComposite ;;
  descr <- ReadString ;; depr <- deserialiseDeprecatedTag ;;
  ret (Function loc zero_loc name params rets descr depr).

(** method.go:221-236 *)
Definition Method_Serialise (e : enc) (s : method) : enc :=
  let e := WriteLocation e (m_location s) in
  let e := WriteString e (m_name s) in
  let e := write_list Parameter_Write e (m_params s) in
  let e := TypeComposite_Write e (m_return s) in
  let e := WriteString e (m_description s) in
  let e := TypeString_Write e (m_scope s) in
  let e := WriteInt e (m_visibility s) in
  let e := WriteBool e (m_static s) in
  let e := WriteInt e (m_classmodifier s) in
  serialiseDeprecatedTag e (m_deprecated s).

(** method.go:238-258 *)
Definition ReadMethod : dec method :=
  loc <- ReadLocation ;; name <- ReadString ;;
  params <- read_list ReadParameter ;; rets <- ReadTypeComposite ;;
  descr <- ReadString ;; scope <- ReadTypeString ;; vis <- ReadInt ;;
  static <- ReadBool ;; cmod <- ReadInt ;; depr <- deserialiseDeprecatedTag ;;
  ret (Method loc zero_loc name params rets descr scope vis static cmod depr).

(** const.go:97-103 *)
Definition Const_Serialise (e : enc) (s : const) : enc :=
  let e := WriteLocation e (k_location s) in
  let e := WriteString e (k_description s) in
  let e := serialiseDeprecatedTag e (k_deprecated s) in
  let e := TypeString_Write e (k_name s) in
  WriteString e (k_value s).

(** const.go:105-113 *)
Definition ReadConst : dec const :=
  loc <- ReadLocation ;; descr <- ReadString ;;
  depr <- deserialiseDeprecatedTag ;; name <- ReadTypeString ;;
  value <- ReadString ;; ret (Const loc descr depr name value).

(** define.go:126-132 *)
Definition Define_Serialise (e : enc) (s : define) : enc :=
  let e := WriteLocation e (d_location s) in
  let e := WriteString e (d_description s) in
  let e := serialiseDeprecatedTag e (d_deprecated s) in
  let e := TypeString_Write e (d_name s) in
  WriteString e (d_value s).

(** define.go:134-142 *)
Definition ReadDefine : dec define :=
  loc <- ReadLocation ;; descr <- ReadString ;;
  depr <- deserialiseDeprecatedTag ;; name <- ReadTypeString ;;
  value <- ReadString ;; ret (Define loc descr depr name value).

(** classConst.go:146-153 *)
Definition ClassConst_Serialise (e : enc) (s : class_const) : enc :=
  let e := WriteLocation e (cc_location s) in
  let e := WriteString e (cc_description s) in
  let e := WriteString e (cc_name s) in
  let e := WriteString e (cc_value s) in
  let e := TypeString_Write e (cc_scope s) in
  serialiseDeprecatedTag e (cc_deprecated s).

(** classConst.go:155-164; VisibilityModifier is left at its zero value, Public *)
Definition ReadClassConst : dec class_const :=
  loc <- ReadLocation ;; descr <- ReadString ;; name <- ReadString ;;
  value <- ReadString ;; scope <- ReadTypeString ;;
  depr <- deserialiseDeprecatedTag ;;
  ret (ClassConst zero_loc loc descr name value scope Public depr).

(** property.go:160-169 *)
Definition Property_Serialise (e : enc) (s : property) : enc :=
  let e := WriteLocation e (pr_location s) in
  let e := WriteString e (pr_name s) in
  let e := TypeString_Write e (pr_scope s) in
  let e := WriteInt e (pr_visibility s) in
  let e := WriteBool e (pr_static s) in
  let e := TypeComposite_Write e (pr_types s) in
  let e := WriteString e (pr_description s) in
  serialiseDeprecatedTag e (pr_deprecated s).

(** property.go:171-182 *)
Definition ReadProperty : dec property :=
  loc <- ReadLocation ;; name <- ReadString ;; scope <- ReadTypeString ;;
  vis <- ReadInt ;; static <- ReadBool ;; types <- ReadTypeComposite ;;
  descr <- ReadString ;; depr <- deserialiseDeprecatedTag ;;
  ret (Property loc zero_loc descr depr name scope vis static types).

(** globalVariable.go:99-104 *)
Definition GlobalVariable_Serialise (e : enc) (s : global_variable) : enc :=
  let e := WriteLocation e (g_location s) in
  let e := TypeComposite_Write e (g_types s) in
  let e := WriteString e (g_description s) in
  WriteString e (g_name s).

(** globalVariable.go:117-124 *)
Definition ReadGlobalVariable : dec global_variable :=
  loc <- ReadLocation ;; types <- ReadTypeComposite ;;
  descr <- ReadString ;; name <- ReadString ;;
  ret (GlobalVariable loc types descr name).
