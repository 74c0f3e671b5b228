(** Which symbols the analyser can produce (Go machine ranges, shape of a
    deprecation tag), and what it means for a symbol read back from the index
    to show the user the same information. *)
From Coq Require Import String.
From Coq Require Import List ZArith.
From Verif Require Import Base.Bytes Base.Protocol Codec.CodecSpec Symbols.Symbols.
Import ListNotations.
Open Scope Z_scope.

Definition ts_ok (t : type_string) : Prop :=
  go_len (ts_fqn t) /\ go_len (ts_original t) /\ int64 (ts_array t).
Definition tss_ok (l : list type_string) : Prop := go_len l /\ Forall ts_ok l.

(** phpDocComment.go:277-300: a deprecation tag carries a version (name) and a
    description only *)
Definition deprecation (name descr : gostr) : tag :=
  Tag (B "@deprecated") name descr [] [] false zero_loc.
Definition depr_ok (t : option tag) : Prop :=
  match t with
  | None => True
  | Some t => t = deprecation (tg_name t) (tg_description t)
              /\ go_len (tg_name t) /\ go_len (tg_description t)
  end.

Definition param_ok (p : parameter) : Prop :=
  loc_ok (pa_location p) /\ loc_ok (pa_varlocation p) /\ go_len (pa_name p)
  /\ tss_ok (pa_type p) /\ go_len (pa_value p).
Definition params_ok (l : list parameter) : Prop := go_len l /\ Forall param_ok l.

Definition class_ok (s : class) : Prop :=
  loc_ok (c_location s) /\ loc_ok (c_refloc s) /\ int64 (c_modifier s)
  /\ go_len (c_description s) /\ ts_ok (c_name s) /\ ts_ok (c_extends s)
  /\ tss_ok (c_interfaces s) /\ tss_ok (c_use s) /\ depr_ok (c_deprecated s).
Definition interface_ok (s : interface) : Prop :=
  loc_ok (i_location s) /\ ts_ok (i_name s) /\ tss_ok (i_extends s)
  /\ go_len (i_description s) /\ depr_ok (i_deprecated s).
Definition trait_ok (s : trait) : Prop := loc_ok (t_location s) /\ ts_ok (t_name s).
Definition function_ok (s : function) : Prop :=
  loc_ok (f_location s) /\ ts_ok (f_name s) /\ params_ok (f_params s)
  /\ tss_ok (f_return s) /\ go_len (f_description s) /\ depr_ok (f_deprecated s).
Definition method_ok (s : method) : Prop :=
  loc_ok (m_location s) /\ go_len (m_name s) /\ params_ok (m_params s)
  /\ tss_ok (m_return s) /\ go_len (m_description s) /\ ts_ok (m_scope s)
  /\ int64 (m_visibility s) /\ int64 (m_classmodifier s) /\ depr_ok (m_deprecated s).
Definition const_ok (s : const) : Prop :=
  loc_ok (k_location s) /\ go_len (k_description s) /\ depr_ok (k_deprecated s)
  /\ ts_ok (k_name s) /\ go_len (k_value s).
Definition define_ok (s : define) : Prop :=
  loc_ok (d_location s) /\ go_len (d_description s) /\ depr_ok (d_deprecated s)
  /\ ts_ok (d_name s) /\ go_len (d_value s).
Definition class_const_ok (s : class_const) : Prop :=
  loc_ok (cc_location s) /\ go_len (cc_description s) /\ go_len (cc_name s)
  /\ go_len (cc_value s) /\ ts_ok (cc_scope s) /\ depr_ok (cc_deprecated s).
Definition property_ok (s : property) : Prop :=
  loc_ok (pr_location s) /\ go_len (pr_name s) /\ ts_ok (pr_scope s)
  /\ int64 (pr_visibility s) /\ tss_ok (pr_types s) /\ go_len (pr_description s)
  /\ depr_ok (pr_deprecated s).
Definition global_variable_ok (s : global_variable) : Prop :=
  loc_ok (g_location s) /\ tss_ok (g_types s) /\ go_len (g_description s)
  /\ go_len (g_name s).

(** "reads back the same": every field, except the two the persisted form
    never had: the location of the bare name token (refLocation) of the kinds
    below, and a parameter's own doc text.  Those two are the subject of the
    refutations. *)
Definition param_same (p q : parameter) : Prop :=
  pa_location q = pa_location p /\ pa_varlocation q = pa_varlocation p
  /\ pa_hasvalue q = pa_hasvalue p /\ pa_name q = pa_name p
  /\ pa_type q = pa_type p /\ pa_value q = pa_value p.
Definition interface_same (a b : interface) : Prop :=
  i_location b = i_location a /\ i_description b = i_description a
  /\ i_deprecated b = i_deprecated a /\ i_name b = i_name a
  /\ i_extends b = i_extends a.
Definition function_same (a b : function) : Prop :=
  f_location b = f_location a /\ f_name b = f_name a
  /\ Forall2 param_same (f_params a) (f_params b)
  /\ f_return b = f_return a /\ f_description b = f_description a
  /\ f_deprecated b = f_deprecated a.
Definition method_same (a b : method) : Prop :=
  m_location b = m_location a /\ m_name b = m_name a
  /\ Forall2 param_same (m_params a) (m_params b)
  /\ m_return b = m_return a /\ m_description b = m_description a
  /\ m_scope b = m_scope a /\ m_visibility b = m_visibility a
  /\ m_static b = m_static a /\ m_classmodifier b = m_classmodifier a
  /\ m_deprecated b = m_deprecated a.
Definition class_const_same_but_visibility (a b : class_const) : Prop :=
  cc_location b = cc_location a /\ cc_description b = cc_description a
  /\ cc_name b = cc_name a /\ cc_value b = cc_value a /\ cc_scope b = cc_scope a
  /\ cc_deprecated b = cc_deprecated a.
Definition property_same (a b : property) : Prop :=
  pr_location b = pr_location a /\ pr_description b = pr_description a
  /\ pr_deprecated b = pr_deprecated a /\ pr_name b = pr_name a
  /\ pr_scope b = pr_scope a /\ pr_visibility b = pr_visibility a
  /\ pr_static b = pr_static a /\ pr_types b = pr_types a.
