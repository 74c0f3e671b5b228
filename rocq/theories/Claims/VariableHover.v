(** Claims about what the editor shows of a variable. *)
From Coq Require Import String.
From Coq Require Import List Bool Arith ZArith Lia.
From Coq.Strings Require Import Byte.
From Verif Require Import Base.Bytes Base.BytesProofs Base.Protocol Symbols.Symbols Symbols.KeysModel Types.TypesModel
  Query.QueryModel Hover.HoverModel Hover.HoverSpec Hover.HoverProofs Store.Examples Expr.ExprModel Expr.ExprSpec Expr.ExprProofs
  Hover.VariableHoverModel Hover.VariableHoverSpec Claims.Expressions.
Import ListNotations.
Open Scope list_scope.
Open Scope nat_scope.

Definition named (t : type_string) : bool := negb (ts_IsEmpty t).
Definition type_pairs (types : type_composite) : list (gostr * Z) := map (fun t => (ts_fqn t, ts_array t)) (List.filter named types).
Lemma join_nil : forall l, join l [] = concat l.
Proof. induction l as [|x l IH]; [reflexivity|]. destruct l as [|y l]; [cbn; rewrite app_nil_r; reflexivity|]. change (join (x :: y :: l) []) with (x ++ [] ++ join (y :: l) []). rewrite IH. reflexivity. Qed.
Lemma type_formatted : forall t, ts_ToString t = type_code (ts_fqn t, ts_array t).
Proof. intros t. unfold ts_ToString, type_code. rewrite join_nil. reflexivity. Qed.
Lemma named_iff : forall t, named t = true <-> type_name (ts_fqn t).
Proof.
  intros t. unfold named, ts_IsEmpty, type_name. rewrite negb_true_iff, orb_false_iff, !str_eqb_neq. reflexivity.
Qed.
Lemma pairs_empty : forall types, tc_IsEmpty types = true <-> type_pairs types = [].
Proof.
  intros types. unfold type_pairs, tc_IsEmpty. induction types as [|t types IH]; [cbn; tauto|].
  cbn [length Nat.eqb orb forallb List.filter]. unfold named at 1. destruct (ts_IsEmpty t); cbn [andb negb]; [|cbn; split; discriminate].
  rewrite <- IH. destruct types; cbn; tauto.
Qed.
Lemma variable_formatted : forall markdown types name description,
  shows_variable markdown (type_pairs types) name description (variableToHover markdown types name description).
Proof.
  intros markdown types name description. exists (if tc_IsEmpty types then [] else tc_ToString types ++ B " "), (concatDescriptionIfAvailable markdown description).
  split; [|split; [|apply description_formatted]].
  - unfold variableToHover, wrapCode. rewrite <- !app_assoc. reflexivity.
  - destruct (tc_IsEmpty types) eqn:E.
    + right. split; [|reflexivity]. apply pairs_empty in E. congruence.
    + left. split; [intros H; apply pairs_empty in H; congruence|]. cbn [app]. f_equal. unfold tc_ToString, type_pairs. rewrite map_map. f_equal.
      apply map_ext. intros t. apply type_formatted.
Qed.
Lemma pairs_listed : forall types f n, In (f, n) (type_pairs types) <-> type_name f /\ listed types f n.
Proof.
  intros types f n. unfold type_pairs. rewrite in_map_iff. split.
  - intros (t & E & I). injection E as <- <-. apply filter_In in I as (I & N). split; [apply named_iff; exact N|]. exists t. auto.
  - intros (N & t & I & <- & <-). exists t. split; [reflexivity|]. apply filter_In. split; [exact I|apply named_iff; exact N].
Qed.

(** ** C94 *)
(** Whatever was asked before, there is a hover for every variable of a file;
    it shows the name and types that can be derived for the variable, and all
    its types if no type comes with two array levels and the members that are
    visible do not depend on the order of the receiver's types. *)
Theorem C94_shown_partial : forall markdown L h is h' i o description,
  analysed h -> asked L h is h' -> nth_error h i = Some o -> o_kind o = KVariable ->
  exists h2 text types e, variable_hover markdown L h' i description = Some (h2, text)
    /\ shows_variable markdown types (o_name o) description text
    /\ shows h i e
    /\ (forall f n, In (f, n) types -> type_name f /\ derivable L e f n)
    /\ (by_types L -> consistent L e -> forall f n, In (f, n) types <-> type_name f /\ typed L e f n).
Proof.
  intros markdown L h is h' i o description A AS E K. destruct (analysed_ok h A) as (W & ST).
  assert (T : there h i) by (unfold there; apply nth_error_Some; congruence). destruct (shows_exists h W i T) as (e & SH).
  pose proof (asked_fit L h is h' W ST AS) as F. destruct (ask_ok L h h' i e W ST F SH) as (h2 & Ea & _).
  destruct F as (_ & F). destruct (F i T) as (o0 & o' & E0 & E' & [Fk Fn _ _ _] & _). rewrite E in E0. injection E0 as <-.
  exists h2, (variableToHover markdown (denote L e) (o_name o) description), (type_pairs (denote L e)), e.
  split; [unfold variable_hover; rewrite E', Ea, Fk, K, Fn; reflexivity|]. split; [apply variable_formatted|]. split; [exact SH|]. split.
  - intros f n I. apply pairs_listed in I as (N & I). split; [exact N|]. apply denote_derivable. exact I.
  - intros BT CO f n. rewrite pairs_listed. rewrite (denote_typed L e BT CO f n). reflexivity.
Qed.
Print Assumptions C94_shown_partial.

(** As long as the index does not change, the hover does not depend on what was
    asked before. *)
Theorem C94_no_memory_partial : forall markdown L h is h' i o description,
  analysed h -> asked L h is h' -> nth_error h i = Some o -> o_kind o = KVariable ->
  option_map snd (variable_hover markdown L h' i description) = option_map snd (variable_hover markdown L h i description).
Proof.
  intros markdown L h is h' i o description A AS E K. destruct (analysed_ok h A) as (W & ST).
  assert (T : there h i) by (unfold there; apply nth_error_Some; congruence). destruct (shows_exists h W i T) as (e & SH).
  pose proof (asked_fit L h is h' W ST AS) as F. destruct (ask_ok L h h' i e W ST F SH) as (h2 & Ea & _).
  destruct (ask_ok L h h i e W ST (asked_fit L h [] h W ST (asked_nothing L h)) SH) as (h3 & Eb & _).
  destruct F as (_ & F). destruct (F i T) as (o0 & o' & E0 & E' & [Fk Fn _ _ _] & _). rewrite E in E0. injection E0 as <-.
  unfold variable_hover. rewrite E', E, Ea, Eb, Fk, K, Fn. reflexivity.
Qed.
Print Assumptions C94_no_memory_partial.

Definition plain (s : gostr) : gostr := s.
(** in the file of Claims/Expressions.v, $order is shown with the type Order, also after $shop was asked for *)
Example C94_hypotheses_met :
  analysed shop_heap /\ by_types shop_lookups
  /\ exists h1 o h2, asked shop_lookups shop_heap [2] h1 /\ nth_error shop_heap 6 = Some o /\ o_kind o = KVariable /\ o_name o = B "$order"
    /\ shows shop_heap 6 order_expr /\ consistent shop_lookups order_expr
    /\ variable_hover plain shop_lookups h1 6 [] = Some (h2, B "```
\Order $order
```
").
Proof.
  split; [exact shop_analysed|]. split; [exact shop_by_types|].
  destruct (ask shop_lookups shop_heap 2) as [(h1, t1)|] eqn:E1; [|vm_compute in E1; discriminate E1].
  exists h1. eexists.
  destruct (variable_hover plain shop_lookups h1 6 []) as [(h2, t)|] eqn:E2; [|vm_compute in E1; injection E1 as <- _; vm_compute in E2; discriminate E2].
  exists h2. split; [apply (asked_next _ _ [] shop_heap 2 h1 t1); [constructor|unfold there; cbn; lia|exact E1]|].
  split; [reflexivity|]. split; [reflexivity|]. split; [reflexivity|]. split.
  { enough (SH : exists e, shows shop_heap 6 e /\ e = order_expr) by (destruct SH as (e & SH & ->); exact SH).
    eexists. split; [|]. eapply (ExprSpec.shows_variable shop_heap 6); [reflexivity|reflexivity|]. apply shows_some. eapply shows_element; [reflexivity|reflexivity|]. apply shows_some.
    eapply (shows_member shop_heap 3); [reflexivity|reflexivity|reflexivity|reflexivity|].
    eapply (ExprSpec.shows_variable shop_heap 2); [reflexivity|reflexivity|]. apply shows_some. apply (shows_known shop_heap 0); reflexivity.
    reflexivity. }
  split; [|vm_compute in E1; injection E1 as <- _; vm_compute in E2; injection E2 as <- <-; reflexivity].
  destruct customer_type as ((_ & (_ & C)) & _). exact C.
Qed.

(** After $x = new Shop; $x = new Order; the hover of the second $x still shows Shop. *)
Theorem C94_reassigned_refuted : exists L h i o h1, analysed h
  /\ nth_error h i = Some o /\ o_kind o = KVariable /\ o_name o = B "$x" /\ o_scope o = Some 2 /\ shows h 2 (EKnown [ty "\Order"])
  /\ variable_hover plain L h i [] = Some (h1, B "```
\Order|\Shop $x
```
").
Proof.
  destruct (variable_hover plain shop_lookups again_heap 3 []) as [(h1, t)|] eqn:E; [|vm_compute in E; discriminate E].
  exists shop_lookups, again_heap, 3. eexists. exists h1. split.
  { destruct (built again_file [] analysed_start) as (h & Eh & A).
    - unfold again_file. repeat (cbn [ops_ok]; split; [unfold op_ok, new_shop; check_ops|cbv beta iota delta [build merge_earlier GetTypes nth_error]; cbn]); exact I.
    - replace again_heap with h; [exact A|]. vm_compute in Eh. injection Eh as <-. reflexivity. }
  split; [reflexivity|]. split; [reflexivity|]. split; [reflexivity|]. split; [reflexivity|].
  split; [refine (shows_known again_heap 2 (Obj KPlain (B "Order") (pos 2 5) [ty "\Order"] None false _) _ _); reflexivity|]. vm_compute in E. injection E as <- <-. reflexivity.
Qed.
Print Assumptions C94_reassigned_refuted.
