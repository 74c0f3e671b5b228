(** The persisted symbol records of package analysis, and their keys.

    Simplification common to all records: the [children] slices are left out;
    they are never persisted and the models that need them (document outline)
    have their own tree type. *)
From Coq Require Import String.
From Coq Require Import List Bool ZArith.
From Verif Require Import Base.Bytes Base.Protocol.
Import ListNotations.
Open Scope Z_scope.

(** analysis/symbolType.go:41-45 TypeString *)
Record type_string := TS { ts_fqn : gostr; ts_original : gostr; ts_array : Z }.

(** analysis/symbolType.go:183-185 TypeComposite (its typeStrings) *)
Definition type_composite := list type_string.

(** analysis/symbol.go:9-19 VisibilityModifierValue (a Go int) *)
Definition Public : Z := 0.
Definition Protected : Z := 1.
Definition Private : Z := 2.

(** analysis/symbol.go:35-45 ClassModifierValue (a Go int) *)
Definition NoClassModifier : Z := 0.
Definition Abstract : Z := 1.
Definition Final : Z := 2.

(** analysis/phpDocComment.go:14-18 methodTagParam *)
Record tag_param := TagParam { tp_type : gostr; tp_name : gostr; tp_value : gostr }.

(** analysis/phpDocComment.go:20-29 tag *)
Record tag := Tag {
  tg_tagname : gostr; tg_name : gostr; tg_description : gostr;
  tg_type : gostr; tg_params : list tag_param; tg_static : bool;
  tg_nameloc : location }.

(** analysis/parameter.go:12-21 Parameter *)
Record parameter := Param {
  pa_location : location; pa_varlocation : location; pa_description : gostr;
  pa_hasvalue : bool; pa_name : gostr; pa_type : type_composite; pa_value : gostr }.

(** analysis/class.go:14-27 Class *)
Record class := Class {
  c_description : gostr; c_refloc : location; c_location : location;
  c_modifier : Z; c_name : type_string; c_extends : type_string;
  c_interfaces : list type_string; c_use : list type_string;
  c_deprecated : option tag }.

(** analysis/interface.go:12-20 Interface *)
Record interface := Interface {
  i_location : location; i_refloc : location; i_description : gostr;
  i_deprecated : option tag; i_name : type_string; i_extends : list type_string }.

(** analysis/trait.go:12-17 Trait *)
Record trait := Trait { t_location : location; t_name : type_string }.

(** analysis/function.go:12-21 Function *)
Record function := Function {
  f_location : location; f_refloc : location; f_name : type_string;
  f_params : list parameter; f_return : type_composite; f_description : gostr;
  f_deprecated : option tag }.

(** analysis/method.go:14-28 Method *)
Record method := Method {
  m_location : location; m_refloc : location; m_name : gostr;
  m_params : list parameter; m_return : type_composite; m_description : gostr;
  m_scope : type_string; m_visibility : Z; m_static : bool; m_classmodifier : Z;
  m_deprecated : option tag }.

(** analysis/const.go:12-18 Const *)
Record const := Const {
  k_location : location; k_description : gostr; k_deprecated : option tag;
  k_name : type_string; k_value : gostr }.

(** analysis/define.go:12-19 Define *)
Record define := Define {
  d_location : location; d_description : gostr; d_deprecated : option tag;
  d_name : type_string; d_value : gostr }.

(** analysis/classConst.go:12-23 ClassConst *)
Record class_const := ClassConst {
  cc_refloc : location; cc_location : location; cc_description : gostr;
  cc_name : gostr; cc_value : gostr; cc_scope : type_string; cc_visibility : Z;
  cc_deprecated : option tag }.

(** analysis/property.go:12-22 Property *)
Record property := Property {
  pr_location : location; pr_refloc : location; pr_description : gostr;
  pr_deprecated : option tag; pr_name : gostr; pr_scope : type_string;
  pr_visibility : Z; pr_static : bool; pr_types : type_composite }.

(** analysis/globalVariable.go:10-16 GlobalVariable *)
Record global_variable := GlobalVariable {
  g_location : location; g_types : type_composite; g_description : gostr;
  g_name : gostr }.
