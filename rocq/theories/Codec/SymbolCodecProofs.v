From Coq Require Import String.
From Coq Require Import List Bool ZArith Lia.
From Coq.Strings Require Import Byte.
From Verif Require Import Base.Bytes Base.Protocol Codec.CodecModel Codec.CodecSpec Codec.CodecProofs
  Symbols.Symbols Codec.SymbolCodecModel Codec.SymbolCodecSpec.
Import ListNotations.
Open Scope list_scope.
Open Scope Z_scope.

Opaque le bytes_enc pos_enc loc_enc.

Definition ts_enc (t : type_string) : gostr :=
  bytes_enc (ts_original t) ++ bytes_enc (ts_fqn t) ++ le 8 (ts_array t).

Ltac wr := rewrite ?WriteString_app, ?WriteInt_app, ?WriteBool_app, ?WriteLocation_app, ?app_nil_r, <- ?app_assoc; try reflexivity.

Lemma TypeString_Write_app : forall e t, TypeString_Write e t = e ++ ts_enc t.
Proof. intros. unfold TypeString_Write, ts_enc. cbv zeta. wr. Qed.

Lemma rt_ts : forall t, ts_ok t -> rt (ts_enc t) ReadTypeString t.
Proof.
  intros [f o a] (H1 & H2 & H3). simpl in *. unfold ts_enc, ReadTypeString, ReadString. simpl.
  eapply rt_bind; [now apply rt_bytes|]. eapply rt_bind; [now apply rt_bytes|].
  apply (rt_bind_ret _ _ _ _ (fun x => TS f o x)). now apply rt_int.
Qed.

Definition list_enc {A} (f : A -> gostr) (l : list A) : gostr :=
  le 8 (Z.of_nat (length l)) ++ flat_map f l.

Lemma rt_tss : forall l, tss_ok l -> rt (list_enc ts_enc l) (read_list ReadTypeString) l.
Proof.
  intros l [H1 H2]. rewrite <- (map_id l) at 2. apply rt_list; [assumption|].
  eapply Forall_impl; [|exact H2]. intros. now apply rt_ts.
Qed.

Lemma write_tss_app : forall e l, write_list TypeString_Write e l = e ++ list_enc ts_enc l.
Proof. intros. apply write_list_app. apply TypeString_Write_app. Qed.

Definition depr_enc (t : option tag) : gostr :=
  match t with
  | None => [x00]
  | Some t => [x01] ++ bytes_enc (tg_name t) ++ bytes_enc (tg_description t)
  end.

Lemma serialiseDeprecatedTag_app : forall e t, serialiseDeprecatedTag e t = e ++ depr_enc t.
Proof. intros e [t|]; simpl; wr. Qed.

Lemma rt_depr : forall t, depr_ok t -> rt (depr_enc t) deserialiseDeprecatedTag t.
Proof.
  intros [t|] H.
  - destruct H as (E & H1 & H2). unfold depr_enc, deserialiseDeprecatedTag.
    eapply rt_bind; [apply (rt_bool true)|]. cbv iota.
    eapply rt_bind; [apply rt_bytes; exact H1|].
    rewrite E at 2. unfold deprecation.
    apply (rt_bind_ret _ _ _ _ (fun x => Some (Tag (B "@deprecated") (tg_name t) x [] [] false zero_loc))).
    now apply rt_bytes.
  - intros rest. reflexivity.
Qed.

Definition param_enc (s : parameter) : gostr :=
  loc_enc (pa_location s) ++ loc_enc (pa_varlocation s) ++ [if pa_hasvalue s then x01 else x00]
  ++ bytes_enc (pa_name s) ++ list_enc ts_enc (pa_type s) ++ bytes_enc (pa_value s) ++ [].

Ltac wr_all :=
  cbv zeta;
  rewrite ?serialiseDeprecatedTag_app, ?TypeString_Write_app, ?write_tss_app, ?WriteString_app,
    ?WriteInt_app, ?WriteBool_app, ?WriteLocation_app;
  repeat (progress rewrite ?TypeString_Write_app, ?write_tss_app, ?WriteString_app,
    ?WriteInt_app, ?WriteBool_app, ?WriteLocation_app, ?serialiseDeprecatedTag_app);
  rewrite ?app_nil_r, <- ?app_assoc; try reflexivity.

Lemma Parameter_Write_app : forall e s, Parameter_Write e s = e ++ param_enc s.
Proof. intros. unfold Parameter_Write, param_enc, TypeComposite_Write. wr_all. Qed.

Ltac rd :=
  first [ apply rt_ret
        | eapply rt_bind;
          [ first [ now apply rt_loc | now apply rt_bytes | apply rt_bool | now apply rt_int
                  | now apply rt_ts | now apply rt_tss | now apply rt_depr ] | ] ].

Definition forget_param (p : parameter) : parameter :=
  Param (pa_location p) (pa_varlocation p) [] (pa_hasvalue p) (pa_name p) (pa_type p) (pa_value p).

Lemma rt_param : forall p, param_ok p -> rt (param_enc p) ReadParameter (forget_param p).
Proof.
  intros p (H1 & H2 & H3 & H4 & H5). unfold param_enc, ReadParameter, ReadString, ReadTypeComposite.
  repeat rd.
Qed.

Lemma rt_params : forall l, params_ok l ->
  rt (list_enc param_enc l) (read_list ReadParameter) (map forget_param l).
Proof.
  intros l [H1 H2]. apply rt_list; [assumption|].
  eapply Forall_impl; [|exact H2]. intros. now apply rt_param.
Qed.

Lemma write_params_app : forall e l, write_list Parameter_Write e l = e ++ list_enc param_enc l.
Proof. intros. apply write_list_app. apply Parameter_Write_app. Qed.

Lemma forget_params_same : forall l, Forall2 param_same l (map forget_param l).
Proof.
  induction l; simpl; constructor; [|assumption]. unfold param_same, forget_param. simpl. tauto.
Qed.

Ltac rdp := first [rd | eapply rt_bind; [now apply rt_params|]].
Ltac wrp := unfold TypeComposite_Write; repeat (progress (cbv zeta; rewrite ?write_params_app)); wr_all.

Lemma class_roundtrip : forall s rest, class_ok s ->
  ReadClass (Class_Serialise NewEncoder s ++ rest) = Some (s, rest).
Proof.
  intros s rest (H1 & H2 & H3 & H4 & H5 & H6 & H7 & H8 & H9). revert rest.
  change (rt (Class_Serialise NewEncoder s) ReadClass s).
  replace (Class_Serialise NewEncoder s) with
    (loc_enc (c_location s) ++ loc_enc (c_refloc s) ++ le 8 (c_modifier s) ++
     bytes_enc (c_description s) ++ ts_enc (c_name s) ++ ts_enc (c_extends s) ++
     list_enc ts_enc (c_interfaces s) ++ list_enc ts_enc (c_use s) ++ depr_enc (c_deprecated s) ++ []).
  - unfold ReadClass, ReadString. destruct s; simpl in *. repeat rd.
  - unfold Class_Serialise, NewEncoder. wrp.
Qed.

Lemma interface_roundtrip : forall s rest, interface_ok s ->
  ReadInterface (Interface_Serialise NewEncoder s ++ rest) =
  Some (Interface (i_location s) zero_loc (i_description s) (i_deprecated s) (i_name s) (i_extends s), rest).
Proof.
  intros s rest (H1 & H2 & H3 & H4 & H5). revert rest.
  match goal with |- forall rest, _ = Some (?v, rest) => change (rt (Interface_Serialise NewEncoder s) ReadInterface v) end.
  replace (Interface_Serialise NewEncoder s) with
    (loc_enc (i_location s) ++ ts_enc (i_name s) ++ list_enc ts_enc (i_extends s) ++
     bytes_enc (i_description s) ++ depr_enc (i_deprecated s) ++ []).
  - unfold ReadInterface, ReadString. repeat rd.
  - unfold Interface_Serialise, NewEncoder. wrp.
Qed.

Lemma trait_roundtrip : forall s rest, trait_ok s ->
  ReadTrait (Trait_Serialise NewEncoder s ++ rest) = Some (s, rest).
Proof.
  intros s rest (H1 & H2). revert rest. change (rt (Trait_Serialise NewEncoder s) ReadTrait s).
  replace (Trait_Serialise NewEncoder s) with (loc_enc (t_location s) ++ ts_enc (t_name s) ++ []).
  - unfold ReadTrait. destruct s; simpl in *. repeat rd.
  - unfold Trait_Serialise, NewEncoder. wrp.
Qed.

Lemma function_roundtrip : forall s rest, function_ok s ->
  ReadFunction (Function_Serialise NewEncoder s ++ rest) =
  Some (Function (f_location s) zero_loc (f_name s) (map forget_param (f_params s)) (f_return s)
          (f_description s) (f_deprecated s), rest).
Proof.
  intros s rest (H1 & H2 & H3 & H4 & H5 & H6). revert rest.
  match goal with |- forall rest, _ = Some (?v, rest) => change (rt (Function_Serialise NewEncoder s) ReadFunction v) end.
  replace (Function_Serialise NewEncoder s) with
    (loc_enc (f_location s) ++ ts_enc (f_name s) ++ list_enc param_enc (f_params s) ++
     list_enc ts_enc (f_return s) ++ bytes_enc (f_description s) ++ depr_enc (f_deprecated s) ++ []).
  - unfold ReadFunction, ReadString, ReadTypeComposite. repeat rdp.
  - unfold Function_Serialise, NewEncoder. wrp.
Qed.

Lemma method_roundtrip : forall s rest, method_ok s ->
  ReadMethod (Method_Serialise NewEncoder s ++ rest) =
  Some (Method (m_location s) zero_loc (m_name s) (map forget_param (m_params s)) (m_return s)
          (m_description s) (m_scope s) (m_visibility s) (m_static s) (m_classmodifier s)
          (m_deprecated s), rest).
Proof.
  intros s rest (H1 & H2 & H3 & H4 & H5 & H6 & H7 & H8 & H9). revert rest.
  match goal with |- forall rest, _ = Some (?v, rest) => change (rt (Method_Serialise NewEncoder s) ReadMethod v) end.
  replace (Method_Serialise NewEncoder s) with
    (loc_enc (m_location s) ++ bytes_enc (m_name s) ++ list_enc param_enc (m_params s) ++
     list_enc ts_enc (m_return s) ++ bytes_enc (m_description s) ++ ts_enc (m_scope s) ++
     le 8 (m_visibility s) ++ [if m_static s then x01 else x00] ++ le 8 (m_classmodifier s) ++
     depr_enc (m_deprecated s) ++ []).
  - unfold ReadMethod, ReadString, ReadTypeComposite. repeat rdp.
  - unfold Method_Serialise, NewEncoder. wrp.
Qed.

Lemma const_roundtrip : forall s rest, const_ok s ->
  ReadConst (Const_Serialise NewEncoder s ++ rest) = Some (s, rest).
Proof.
  intros s rest (H1 & H2 & H3 & H4 & H5). revert rest. change (rt (Const_Serialise NewEncoder s) ReadConst s).
  replace (Const_Serialise NewEncoder s) with
    (loc_enc (k_location s) ++ bytes_enc (k_description s) ++ depr_enc (k_deprecated s) ++
     ts_enc (k_name s) ++ bytes_enc (k_value s) ++ []).
  - unfold ReadConst, ReadString. destruct s; simpl in *. repeat rd.
  - unfold Const_Serialise, NewEncoder. wrp.
Qed.

Lemma define_roundtrip : forall s rest, define_ok s ->
  ReadDefine (Define_Serialise NewEncoder s ++ rest) = Some (s, rest).
Proof.
  intros s rest (H1 & H2 & H3 & H4 & H5). revert rest. change (rt (Define_Serialise NewEncoder s) ReadDefine s).
  replace (Define_Serialise NewEncoder s) with
    (loc_enc (d_location s) ++ bytes_enc (d_description s) ++ depr_enc (d_deprecated s) ++
     ts_enc (d_name s) ++ bytes_enc (d_value s) ++ []).
  - unfold ReadDefine, ReadString. destruct s; simpl in *. repeat rd.
  - unfold Define_Serialise, NewEncoder. wrp.
Qed.

Lemma class_const_roundtrip : forall s rest, class_const_ok s ->
  ReadClassConst (ClassConst_Serialise NewEncoder s ++ rest) =
  Some (ClassConst zero_loc (cc_location s) (cc_description s) (cc_name s) (cc_value s) (cc_scope s)
          Public (cc_deprecated s), rest).
Proof.
  intros s rest (H1 & H2 & H3 & H4 & H5 & H6). revert rest.
  match goal with |- forall rest, _ = Some (?v, rest) => change (rt (ClassConst_Serialise NewEncoder s) ReadClassConst v) end.
  replace (ClassConst_Serialise NewEncoder s) with
    (loc_enc (cc_location s) ++ bytes_enc (cc_description s) ++ bytes_enc (cc_name s) ++
     bytes_enc (cc_value s) ++ ts_enc (cc_scope s) ++ depr_enc (cc_deprecated s) ++ []).
  - unfold ReadClassConst, ReadString. repeat rd.
  - unfold ClassConst_Serialise, NewEncoder. wrp.
Qed.

Lemma property_roundtrip : forall s rest, property_ok s ->
  ReadProperty (Property_Serialise NewEncoder s ++ rest) =
  Some (Property (pr_location s) zero_loc (pr_description s) (pr_deprecated s) (pr_name s)
          (pr_scope s) (pr_visibility s) (pr_static s) (pr_types s), rest).
Proof.
  intros s rest (H1 & H2 & H3 & H4 & H5 & H6 & H7). revert rest.
  match goal with |- forall rest, _ = Some (?v, rest) => change (rt (Property_Serialise NewEncoder s) ReadProperty v) end.
  replace (Property_Serialise NewEncoder s) with
    (loc_enc (pr_location s) ++ bytes_enc (pr_name s) ++ ts_enc (pr_scope s) ++ le 8 (pr_visibility s) ++
     [if pr_static s then x01 else x00] ++ list_enc ts_enc (pr_types s) ++ bytes_enc (pr_description s) ++
     depr_enc (pr_deprecated s) ++ []).
  - unfold ReadProperty, ReadString, ReadTypeComposite. repeat rd.
  - unfold Property_Serialise, NewEncoder. wrp.
Qed.

Lemma global_variable_roundtrip : forall s rest, global_variable_ok s ->
  ReadGlobalVariable (GlobalVariable_Serialise NewEncoder s ++ rest) = Some (s, rest).
Proof.
  intros s rest (H1 & H2 & H3 & H4). revert rest.
  change (rt (GlobalVariable_Serialise NewEncoder s) ReadGlobalVariable s).
  replace (GlobalVariable_Serialise NewEncoder s) with
    (loc_enc (g_location s) ++ list_enc ts_enc (g_types s) ++ bytes_enc (g_description s) ++
     bytes_enc (g_name s) ++ []).
  - unfold ReadGlobalVariable, ReadString, ReadTypeComposite. destruct s; simpl in *. repeat rd.
  - unfold GlobalVariable_Serialise, NewEncoder. wrp.
Qed.
