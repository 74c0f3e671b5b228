From Coq Require Import String.
From Coq Require Import List Bool ZArith Lia.
From Coq.Strings Require Import Byte.
From Verif Require Import Base.Bytes Base.BytesProofs Base.Protocol Codec.SymbolCodecProofs Symbols.Symbols Symbols.KeysModel Types.TypesModel
  Storage.KvModel Store.FilterModel Store.StoreModel Store.StoreSpec Store.LookupProofs Store.LookupKinds Query.QueryModel Query.QueryStoreModel Query.QueryHistory
  Whole.DefinitionModel Whole.DefinitionProofs Ide.ArgumentModel Members.MemberModel Hover.HoverModel Hover.HoverSpec.
Import ListNotations.
Open Scope list_scope.
Open Scope nat_scope.

(** ** The formats *)
Lemma clause_if : forall (b : bool) before s, clause (b = true) before s (if b then before ++ s else []).
Proof. intros [] before s; [left; auto|right]. split; [discriminate|reflexivity]. Qed.
Lemma clause_nil : forall {A} (l : list A) before s, clause (l <> []) before s (match l with [] => [] | _ => before ++ s end).
Proof. intros A [|a l] before s; [right|left]; split; try reflexivity; [intros N; apply N; reflexivity|discriminate]. Qed.
Lemma clause_match : forall {A} (f : list A -> gostr) (l : list A) before, clause (l <> []) before (f l) (match l with [] => [] | a :: l' => before ++ f (a :: l') end).
Proof. intros A f [|a l] before; [right|left]; split; try reflexivity; [intros N; apply N; reflexivity|discriminate]. Qed.
Lemma clause_ext : forall P Q before s t, (P <-> Q) -> clause P before s t -> clause Q before s t.
Proof. unfold clause. intros P Q before s t E [(H & ->)|(H & ->)]; [left|right]; rewrite <- E; auto. Qed.
Lemma typed_iff : forall types, typed types <-> negb (tc_IsEmpty types) = true.
Proof.
  intros types. unfold typed, tc_IsEmpty. split.
  - intros (t & I & E). destruct types as [|u us]; [destruct I|]. cbn [length Nat.eqb orb]. apply negb_true_iff. destruct (forallb ts_IsEmpty (u :: us)) eqn:F; [|reflexivity].
    rewrite forallb_forall in F. rewrite (F t I) in E. discriminate E.
  - intros E. apply negb_true_iff in E. apply orb_false_iff in E as (_ & E). induction types as [|u us IH]; [discriminate E|]. cbn [forallb] in E.
    destruct (ts_IsEmpty u) eqn:Eu; [destruct (IH E) as (t & I & Et); exists t; split; [right; exact I|exact Et]|exists u; split; [left; reflexivity|exact Eu]].
Qed.
Lemma clause_typed : forall types before s, clause (typed types) before s (if tc_IsEmpty types then [] else before ++ s).
Proof.
  intros types before s. apply (clause_ext (negb (tc_IsEmpty types) = true)); [symmetry; apply typed_iff|]. destruct (tc_IsEmpty types); cbn [negb]; [right|left]; auto.
Qed.
Lemma parameter_formatted : forall p, parameter_code p (concatParam p).
Proof.
  intros p. unfold parameter_code, concatParam. do 2 eexists. split; [reflexivity|]. split; [apply (clause_typed (pa_type p) [])|apply clause_if].
Qed.
Lemma callable_formatted : forall params returns, callable_code params returns (B "(" ++ concatParams params ++ B ")" ++ returned returns).
Proof.
  intros params returns. unfold callable_code, concatParams, returned. do 2 eexists. split; [reflexivity|]. split; [|apply clause_typed].
  induction params as [|p params IH]; cbn [map]; constructor; [apply parameter_formatted|exact IH].
Qed.
Lemma visibility_formatted : forall v, visibility_code v (visibility_ToString v).
Proof.
  intros v. unfold visibility_code, visibility_ToString. destruct (Z.eqb_spec v Public); [auto|]. destruct (Z.eqb_spec v Private); [auto|]. destruct (Z.eqb_spec v Protected); [auto|].
  right. right. right. split; [|reflexivity]. cbn. intuition.
Qed.
Section Formats.
Variable markdown : gostr -> gostr.
Lemma description_formatted : forall s, clause (s <> []) ruler (markdown s) (concatDescriptionIfAvailable markdown s).
Proof. intros s. exact (clause_nil s ruler (markdown s)). Qed.
Lemma shown_section : forall (h : gostr -> gostr -> Prop) code description, h code description ->
  shows markdown h (wrapPHPCode code ++ concatDescriptionIfAvailable markdown description ++ writeHorLine).
Proof.
  intros h code description H. exists code, description, (concatDescriptionIfAvailable markdown description). split; [exact H|]. split; [reflexivity|apply description_formatted].
Qed.
Lemma shown_member_section : forall (h : gostr -> gostr -> Prop) code sc description, h code description ->
  shows_member markdown h sc (wrapPHPCode code ++ concatScopeIfAvailable sc ++ concatDescriptionIfAvailable markdown description ++ writeHorLine).
Proof.
  intros h code sc description H. exists code, description, (concatDescriptionIfAvailable markdown description). split; [exact H|]. split; [|apply description_formatted].
  unfold concatScopeIfAvailable, inline_code, place_code. change (code_block code) with (wrapPHPCode code). change ruler with writeHorLine. rewrite <- !app_assoc. destruct sc; cbn [app]; rewrite <- ?app_assoc; reflexivity.
Qed.
Lemma class_formatted : forall c, shows markdown (head (SClass c)) (format_class markdown c).
Proof.
  intros c. apply shown_section. cbn [head]. do 2 eexists. split; [reflexivity|]. split; [|split; [exact (clause_match (fun l => join (map ts_original l) (B ", ")) (c_interfaces c) _)|reflexivity]].
  unfold has_name. destruct (ts_IsEmpty (c_extends c)); [right|left]; split; try reflexivity; discriminate.
Qed.
Lemma interface_formatted : forall i, shows markdown (head (SInterface i)) (format_interface markdown i).
Proof.
  intros i. apply shown_section. cbn [head]. eexists. split; [reflexivity|]. split; [|reflexivity]. fold has_name.
  eapply clause_ext; [|exact (clause_match (fun l => join l (B ", ")) (map ts_original (List.filter has_name (i_extends i))) (B " extends "))]. split.
  - destruct (List.filter has_name (i_extends i)) as [|e es] eqn:F; [intros N; exfalso; apply N; reflexivity|]. intros _. exists e. apply filter_In. rewrite F. left. reflexivity.
  - intros (e & I & N) E. apply map_eq_nil in E. assert (Ie : In e (List.filter has_name (i_extends i))) by (apply filter_In; auto). rewrite E in Ie. destruct Ie.
Qed.
Lemma trait_formatted : forall t, shows markdown (head (STrait t)) (format_trait markdown t).
Proof. intros t. apply shown_section. split; reflexivity. Qed.
Lemma function_formatted : forall f, shows markdown (head (SFunction f)) (format_function markdown f).
Proof. intros f. apply shown_section. cbn [head]. eexists. split; [reflexivity|]. split; [apply callable_formatted|reflexivity]. Qed.
Lemma const_formatted : forall k, shows markdown (head (SConst k)) (format_const markdown k).
Proof. intros k. apply shown_section. cbn [head]. eexists. split; [reflexivity|]. split; [exact (clause_match (fun v => v) (k_value k) _)|reflexivity]. Qed.
Lemma define_formatted : forall k, shows markdown (head (SDefine k)) (format_define markdown k).
Proof. intros k. apply shown_section. cbn [head]. eexists. split; [reflexivity|]. split; [exact (clause_match (fun v => v) (d_value k) _)|reflexivity]. Qed.
Lemma method_formatted : forall m sc, shows_member markdown (method_head m) sc (format_method markdown m sc).
Proof.
  intros m sc. apply shown_member_section. unfold method_head. do 3 eexists. split; [reflexivity|]. split; [apply visibility_formatted|]. split; [apply (clause_if (m_static m) (B " ") (B "static"))|].
  split; [apply callable_formatted|reflexivity].
Qed.
Lemma property_formatted : forall p sc, shows_member markdown (property_head p) sc (format_property markdown p sc).
Proof.
  intros p sc. apply shown_member_section. unfold property_head. do 3 eexists. split; [reflexivity|]. split; [apply visibility_formatted|]. split; [apply (clause_if (pr_static p) (B " ") (B "static"))|].
  split; [apply clause_typed|reflexivity].
Qed.
Lemma constant_formatted : forall c sc, shows_member markdown (constant_head c) sc (format_class_const markdown c sc).
Proof. intros c sc. apply shown_member_section. unfold constant_head. eexists. split; [reflexivity|]. split; [exact (clause_match (fun v => v) (cc_value c) _)|reflexivity]. Qed.

(** what the index keeps is what is shown *)
Lemma params_kept : forall params ps, Forall2 parameter_code (map forget_param params) ps -> Forall2 parameter_code params ps.
Proof. induction params as [|p params IH]; intros ps H; inversion H; subst; constructor; [exact H2|exact (IH _ H4)]. Qed.
Lemma callable_kept : forall params returns code, callable_code (map forget_param params) returns code -> callable_code params returns code.
Proof. intros params returns code (ps & ret & E & F & R). exists ps, ret. split; [exact E|]. split; [apply params_kept; exact F|exact R]. Qed.
Lemma head_kept : forall x code description, head (keep x) code description -> head x code description.
Proof.
  intros [] code description H; try exact H. cbn [keep head] in *. destruct H as (call & E & C & D). exists call. split; [exact E|]. split; [apply callable_kept; exact C|exact D].
Qed.
Lemma shows_kept : forall x text, shows markdown (head (keep x)) text -> shows markdown (head x) text.
Proof. intros x text (code & description & more & H & R). exists code, description, more. split; [apply head_kept; exact H|exact R]. Qed.

(** ** What is found *)
Section Found.
Context {TX : Text} {X : XorFilter}.
Hypothesis TOK : text_ok TX.
Variables (root : gostr) (h : list event) (st : store).
Hypothesis OK : Forall event_ok h.
Hypothesis RUN : run root h = Some st.
Definition shown_for (qs : list StoreSpec.query) (found : option gostr) : Prop := exists text, found = Some text /\ shows_all markdown h qs text.
(** the declarations behind what the index keeps *)
Lemma originals : forall q l, (forall x, In x l -> exists s, current h s /\ wanted q s /\ x = keep s) ->
  exists xs, map keep xs = l /\ Forall (fun s => current h s /\ wanted q s) xs.
Proof.
  intros q. induction l as [|x l IH]; intros H; [exists []; split; [reflexivity|constructor]|].
  destruct (H x (or_introl eq_refl)) as (s & C & W & ->). destruct IH as (xs & E & F); [intros y I; apply H; right; exact I|].
  exists (s :: xs). split; [cbn; rewrite E; reflexivity|constructor; auto].
Qed.
Lemma shown_one : forall A (inj : A -> symbol) format (found : option (list A)) q l,
  (forall a, shows markdown (head (inj a)) (format a)) -> option_map (map inj) found = Some l -> exact_answer h q l -> shown_for [q] (formatted format found).
Proof.
  intros A inj format found q l Sh E (Nd & Ex). destruct found as [l'|]; [|discriminate E]. injection E as <-. eexists. split; [reflexivity|].
  destruct (originals q (map inj l')) as (xs & Ek & F); [intros x I; apply Ex in I; exact I|]. exists xs, (map format l'). split; [reflexivity|]. split; [|split; [|split]].
  - clear Ex F Nd. revert xs Ek. induction l' as [|a l' IH]; intros [|x xs] Ek; try discriminate Ek; [constructor|]. injection Ek as Ex Ek. cbn [map]. constructor; [|exact (IH _ Ek)].
    apply shows_kept. rewrite Ex. apply Sh.
  - apply (NoDup_map_inv keep). rewrite Ek. exact Nd.
  - intros x I. rewrite Forall_forall in F. destruct (F x I) as (C & W). split; [exact C|]. exists q. split; [left; reflexivity|exact W].
  - intros q' x [<-|[]] C W. assert (I : In (keep x) (map inj l')) by (apply Ex; exists x; auto). apply in_map_iff in I as (a & Ea & Ia). exists (format a). split; [apply in_map; exact Ia|].
    apply shows_kept. rewrite <- Ea. apply Sh.
Qed.
Lemma class_shown : forall n, shown_for [QClass n] (formatted (format_class markdown) (Query_GetClasses st n)).
Proof. intros n. destruct (classes_exact TOK root h st OK RUN n) as (l & A & E). exact (shown_one _ SClass _ _ _ _ class_formatted A E). Qed.
Lemma interface_shown : forall n, shown_for [QInterface n] (formatted (format_interface markdown) (GetInterfaces st n)).
Proof. intros n. destruct (interfaces_exact TOK root h st OK RUN n) as (l & A & E). exact (shown_one _ SInterface _ _ _ _ interface_formatted A E). Qed.
Lemma trait_shown : forall n, shown_for [QTrait n] (formatted (format_trait markdown) (GetTraits st n)).
Proof. intros n. destruct (traits_exact TOK root h st OK RUN n) as (l & A & E). exact (shown_one _ STrait _ _ _ _ trait_formatted A E). Qed.
Lemma function_shown : forall n, shown_for [QFunction n] (formatted (format_function markdown) (GetFunctions st n)).
Proof. intros n. destruct (functions_exact TOK root h st OK RUN n) as (l & A & E). exact (shown_one _ SFunction _ _ _ _ function_formatted A E). Qed.
Lemma const_shown : forall n, shown_for [QConst n] (formatted (format_const markdown) (GetConsts st n)).
Proof. intros n. destruct (consts_exact TOK root h st OK RUN n) as (l & A & E). exact (shown_one _ SConst _ _ _ _ const_formatted A E). Qed.
Lemma define_shown : forall n, shown_for [QDefine n] (formatted (format_define markdown) (GetDefines st n)).
Proof. intros n. destruct (defines_exact TOK root h st OK RUN n) as (l & A & E). exact (shown_one _ SDefine _ _ _ _ define_formatted A E). Qed.
Lemma shown_none : shown_for [] (Some []).
Proof.
  exists []. split; [reflexivity|]. exists [], []. split; [reflexivity|]. split; [constructor|]. split; [constructor|]. split; [intros x []|intros q x []].
Qed.
Lemma shown_more : forall qs1 qs2 f l, (forall q1 q2 x, In q1 qs1 -> In q2 qs2 -> wanted q1 x -> ~ wanted q2 x) ->
  shown_for qs1 f -> shown_for qs2 (concat_opt l) -> shown_for (qs1 ++ qs2) (concat_opt (f :: l)).
Proof.
  intros qs1 qs2 f l Dis (t1 & -> & x1 & ts1 & -> & F1 & N1 & S1 & C1) (t2 & El & x2 & ts2 & -> & F2 & N2 & S2 & C2). exists (concat ts1 ++ concat ts2). cbn [concat_opt]. rewrite El. split; [reflexivity|].
  exists (x1 ++ x2), (ts1 ++ ts2). split; [rewrite concat_app; reflexivity|]. split; [apply Forall2_app; assumption|]. split; [|split].
  - clear F1 F2 C1 C2. induction x1 as [|x x1 IH]; [exact N2|]. inversion N1; subst. cbn [app]. constructor.
    + rewrite in_app_iff. intros [I|I]; [contradiction|]. destruct (S1 x (or_introl eq_refl)) as (_ & q1 & I1 & W1). destruct (S2 x I) as (_ & q2 & I2 & W2). exact (Dis _ _ _ I1 I2 W1 W2).
    + apply IH; [assumption|]. intros y I. apply S1. right. exact I.
  - intros x I. apply in_app_or in I as [I|I]; [destruct (S1 x I) as (C & q & Iq & W)|destruct (S2 x I) as (C & q & Iq & W)]; (split; [exact C|]; exists q; split; [apply in_or_app; auto|exact W]).
  - intros q x I C W. apply in_app_or in I as [I|I]; [destruct (C1 q x I C W) as (t & It & St)|destruct (C2 q x I C W) as (t & It & St)]; (exists t; split; [apply in_or_app; auto|exact St]).
Qed.
End Found.
End Formats.
