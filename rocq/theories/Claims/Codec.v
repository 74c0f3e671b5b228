(** Property theorems: the persisted form of values and symbols. *)
From Coq Require Import String.
From Coq Require Import List Bool ZArith Lia.
From Coq.Strings Require Import Byte.
From Verif Require Import Base.Bytes Base.Protocol Codec.CodecModel Codec.CodecSpec Codec.CodecProofs
  Symbols.Symbols Codec.SymbolCodecModel Codec.SymbolCodecSpec Codec.SymbolCodecProofs.
Import ListNotations.
Open Scope list_scope.
Open Scope Z_scope.

(** C01 *)
Theorem C01_sequence_roundtrip : forall (vs : list gval) (rest : gostr),
  Forall val_ok vs ->
  read_all (map type_of vs) (write_all NewEncoder vs ++ rest) = Some (vs, rest).
Proof. intros vs rest H. exact (rt_all vs H rest). Qed.
Print Assumptions C01_sequence_roundtrip.

(** writing onto a non-empty buffer only appends *)
Theorem C01_writes_append : forall (vs : list gval) (e : enc),
  write_all e vs = e ++ write_all NewEncoder vs.
Proof. exact write_all_app. Qed.
Print Assumptions C01_writes_append.

Definition ex_vals : list gval :=
  [VInt (-1); VUInt32 4294967295; VString (B "a\b"); VBool true; VBytes [];
   VPosition (Pos 3 (-7)); VLocation (Loc (B "file:///a.php") (Rng (Pos 0 1) (Pos 2 3)));
   VFloat64 4607182418800017408; VInt (- 2 ^ 63); VUInt64 (2 ^ 64 - 1)].
Example C01_hypotheses_met : Forall val_ok ex_vals.
Proof.
  repeat constructor; cbn; unfold int64, uint32, uint64, go_len, loc_ok, pos_ok, int64, go_len; cbn; lia.
Qed.

(** C55 *)
Theorem C55_truncated_data_never_decodes : forall (vs : list gval) (p q : gostr),
  Forall val_ok vs -> write_all NewEncoder vs = p ++ q -> q <> [] ->
  read_all (map type_of vs) p = None.
Proof. exact read_all_truncated. Qed.
Print Assumptions C55_truncated_data_never_decodes.
Example C55_hypotheses_met : exists p q,
  Forall val_ok ex_vals /\ write_all NewEncoder ex_vals = p ++ q /\ q <> [] /\ p <> [].
Proof.
  exists (firstn 20 (write_all NewEncoder ex_vals)), (skipn 20 (write_all NewEncoder ex_vals)).
  split; [exact C01_hypotheses_met|]. split; [symmetry; apply firstn_skipn|].
  split; vm_compute; discriminate.
Qed.

(** C02: one theorem per persisted kind *)
Theorem C02_class : forall s rest, class_ok s ->
  ReadClass (Class_Serialise NewEncoder s ++ rest) = Some (s, rest).
Proof. exact class_roundtrip. Qed.
Print Assumptions C02_class.

Theorem C02_interface : forall s rest, interface_ok s ->
  exists s', ReadInterface (Interface_Serialise NewEncoder s ++ rest) = Some (s', rest)
             /\ interface_same s s'.
Proof.
  intros s rest H. eexists. split; [exact (interface_roundtrip s rest H)|].
  unfold interface_same; simpl; tauto.
Qed.
Print Assumptions C02_interface.

Theorem C02_trait : forall s rest, trait_ok s ->
  ReadTrait (Trait_Serialise NewEncoder s ++ rest) = Some (s, rest).
Proof. exact trait_roundtrip. Qed.
Print Assumptions C02_trait.

Theorem C02_function_partial : forall s rest, function_ok s ->
  exists s', ReadFunction (Function_Serialise NewEncoder s ++ rest) = Some (s', rest)
             /\ function_same s s'.
Proof.
  intros s rest H. eexists. split; [exact (function_roundtrip s rest H)|].
  unfold function_same; simpl. pose proof (forget_params_same (f_params s)). tauto.
Qed.
Print Assumptions C02_function_partial.

Theorem C02_method_partial : forall s rest, method_ok s ->
  exists s', ReadMethod (Method_Serialise NewEncoder s ++ rest) = Some (s', rest)
             /\ method_same s s'.
Proof.
  intros s rest H. eexists. split; [exact (method_roundtrip s rest H)|].
  unfold method_same; simpl. pose proof (forget_params_same (m_params s)). tauto.
Qed.
Print Assumptions C02_method_partial.

Theorem C02_const : forall s rest, const_ok s ->
  ReadConst (Const_Serialise NewEncoder s ++ rest) = Some (s, rest).
Proof. exact const_roundtrip. Qed.
Print Assumptions C02_const.

Theorem C02_define : forall s rest, define_ok s ->
  ReadDefine (Define_Serialise NewEncoder s ++ rest) = Some (s, rest).
Proof. exact define_roundtrip. Qed.
Print Assumptions C02_define.

Theorem C02_class_const_partial : forall s rest, class_const_ok s ->
  exists s', ReadClassConst (ClassConst_Serialise NewEncoder s ++ rest) = Some (s', rest)
             /\ class_const_same_but_visibility s s'.
Proof.
  intros s rest H. eexists. split; [exact (class_const_roundtrip s rest H)|].
  unfold class_const_same_but_visibility; simpl; tauto.
Qed.
Print Assumptions C02_class_const_partial.

Theorem C02_property : forall s rest, property_ok s ->
  exists s', ReadProperty (Property_Serialise NewEncoder s ++ rest) = Some (s', rest)
             /\ property_same s s'.
Proof.
  intros s rest H. eexists. split; [exact (property_roundtrip s rest H)|].
  unfold property_same; simpl; tauto.
Qed.
Print Assumptions C02_property.

Theorem C02_global_variable : forall s rest, global_variable_ok s ->
  ReadGlobalVariable (GlobalVariable_Serialise NewEncoder s ++ rest) = Some (s, rest).
Proof. exact global_variable_roundtrip. Qed.
Print Assumptions C02_global_variable.

(** What is missing from the full statement: the documentation of a parameter
    is not part of the persisted form. *)
Ltac solve_ok :=
  repeat first
    [ progress unfold class_ok, interface_ok, trait_ok, function_ok, method_ok, const_ok, define_ok,
        class_const_ok, property_ok, global_variable_ok, params_ok, param_ok, tss_ok, ts_ok,
        depr_ok, loc_ok, pos_ok, int64, go_len, Final, Abstract, Private, Protected, Public
    | progress cbn
    | apply Forall_nil | apply Forall_cons
    | match goal with |- _ /\ _ => split | |- True => exact I | |- _ = _ => reflexivity end
    | lia ].
Definition ex_loc : location := Loc (B "file:///a.php") (Rng (Pos 1 0) (Pos 4 1)).
Definition ex_ts (s : string) : type_string := TS (B s) (B s) 0.
Definition ex_param : parameter :=
  Param ex_loc ex_loc (B "the count") false (B "$n") [ex_ts "int"] [].
Definition ex_function : function :=
  Function ex_loc ex_loc (TS (B "\ns\f") (B "f") 0) [ex_param] [ex_ts "int"; TS (B "\A") (B "A") 2]
    (B "doc") (Some (deprecation (B "1.0") (B "use g"))).
Theorem C02_parameter_documentation_refuted :
  exists s s', function_ok s
    /\ ReadFunction (Function_Serialise NewEncoder s) = Some (s', [])
    /\ map pa_description (f_params s') <> map pa_description (f_params s).
Proof.
  exists ex_function. eexists. split; [|split].
  - solve_ok.
  - vm_compute. reflexivity.
  - vm_compute. discriminate.
Qed.
Print Assumptions C02_parameter_documentation_refuted.

Definition ex_method : method :=
  Method ex_loc ex_loc (B "run") [ex_param; ex_param] [] (B "") (TS (B "\A") (B "A") 0)
    Private true Abstract None.
Definition ex_class : class :=
  Class (B "d") ex_loc ex_loc Final (TS (B "\N\C") (B "C") 0) (TS (B "\N\P") (B "P") 0)
    [TS (B "\I") (B "I") 0; TS (B "\J") (B "J") 0] [TS (B "\T") (B "T") 0]
    (Some (deprecation (B "2") (B ""))).
Definition ex_interface : interface :=
  Interface ex_loc ex_loc (B "d") None (ex_ts "I") [ex_ts "J"; ex_ts "K"].
Definition ex_class_const (v : Z) : class_const :=
  ClassConst ex_loc ex_loc (B "d") (B "A") (B "1") (TS (B "\C") (B "C") 0) v None.
Definition ex_property : property :=
  Property ex_loc ex_loc (B "d") None (B "$p") (TS (B "\C") (B "C") 0) Protected true [ex_ts "int"].
Example C02_hypotheses_met :
  class_ok ex_class /\ interface_ok ex_interface /\ function_ok ex_function /\ method_ok ex_method
  /\ class_const_ok (ex_class_const Private) /\ property_ok ex_property
  /\ trait_ok (Trait ex_loc (ex_ts "T"))
  /\ const_ok (Const ex_loc (B "d") (Some (deprecation (B "1") (B "x"))) (ex_ts "K") (B "12"))
  /\ define_ok (Define ex_loc (B "d") None (ex_ts "K") (B "12"))
  /\ global_variable_ok (GlobalVariable ex_loc [ex_ts "int"] (B "d") (B "$g")).
Proof. solve_ok. Qed.

(** C03 *)
Theorem C03_visibility_refuted :
  exists s s', class_const_ok s
    /\ ReadClassConst (ClassConst_Serialise NewEncoder s) = Some (s', [])
    /\ cc_visibility s = Private /\ cc_visibility s' = Public.
Proof.
  exists (ex_class_const Private). eexists. split; [|split; [|split]].
  - solve_ok.
  - vm_compute. reflexivity.
  - reflexivity.
  - reflexivity.
Qed.
Print Assumptions C03_visibility_refuted.

(** exactly the public ones survive *)
Theorem C03_visibility_partial : forall s rest, class_const_ok s ->
  exists s', ReadClassConst (ClassConst_Serialise NewEncoder s ++ rest) = Some (s', rest)
             /\ (cc_visibility s' = cc_visibility s <-> cc_visibility s = Public).
Proof.
  intros s rest H. eexists. split; [exact (class_const_roundtrip s rest H)|]. simpl.
  split; congruence.
Qed.
Print Assumptions C03_visibility_partial.
Example C03_hypotheses_met : class_const_ok (ex_class_const Public) /\ class_const_ok (ex_class_const Protected).
Proof. solve_ok. Qed.
