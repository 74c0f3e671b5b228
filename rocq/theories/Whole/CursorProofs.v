(** Proofs about "find references" at a place in a document. *)
From Coq Require Import String.
From Coq Require Import List Bool ZArith Lia Sorting.Sorted.
From Coq.Strings Require Import Byte.
From Verif Require Import Base.Bytes Base.BytesProofs Base.Protocol Symbols.Symbols Symbols.KeysModel Text.TextModel Text.TextProofs Text.PositionModel Types.TypesModel
  Types.ImportModel Types.ImportSpec Types.ImportProofs Rpc.StreamModel Analyse.SyntaxModel Analyse.AnalyseModel Analyse.AnalyseSpec Analyse.AnalyseProofs Analyse.DeclareSpec Analyse.DeclareProofs
  Analyse.UseSpec Analyse.UseProofs Analyse.ResolveSpec Analyse.ResolveProofs Analyse.RefModel
  Storage.KvModel Store.FilterModel Store.StoreModel Store.StoreSpec Whole.IndexSpec Whole.RefSpec Whole.RefProofs Whole.CursorModel Whole.CursorSpec.
Import ListNotations.
Open Scope list_scope.
Open Scope nat_scope.

(** ** The token under the cursor *)
Section Spine.
Variable o : Z.
Definition hit (t : token) : bool := (Z.of_nat (t_offset t) <? o)%Z && (o <=? Z.of_nat (t_end t))%Z.
Fixpoint node_ind' (P : node -> Prop) (HP : forall ty kids, Forall P kids -> P (Ph ty kids)) (HT : forall t, P (Tk t)) (HE : forall e, P (Err e)) (n : node) : P n :=
  match n with
  | Ph ty kids => HP ty kids ((fix all (l : list node) : Forall P l := match l with [] => Forall_nil P | k :: l => Forall_cons k (node_ind' P HP HT HE k) (all l) end) kids)
  | Tk t => HT t
  | Err e => HE e
  end.
Lemma no_hit : forall n found sp, Forall (fun t => hit t = false) (written n) -> spine_at o found n sp = found.
Proof.
  induction n as [ty kids IH|t|e] using node_ind'; intros found sp H.
  - cbn [spine_at]. cbn [written] in H. generalize (Ph ty kids :: sp). intros sp'. revert found. induction IH as [|k kids Hk _ IHk]; intros found; [reflexivity|].
    cbn [flat_map] in H. apply Forall_app in H as (Ha & Hb). cbn [fold_left]. rewrite Hk by exact Ha. exact (IHk Hb found).
  - cbn [spine_at]. inversion H as [|x y Hx]; subst. unfold hit in Hx. rewrite Hx. reflexivity.
  - reflexivity.
Qed.
Lemma no_hits : forall l found sp, Forall (fun t => hit t = false) (flat_map written l) -> fold_left (fun found k => spine_at o found k sp) l found = found.
Proof.
  induction l as [|k l IH]; intros found sp H; [reflexivity|]. cbn [flat_map] in H. apply Forall_app in H as (Ha & Hb). cbn [fold_left]. rewrite no_hit by exact Ha. exact (IH found sp Hb).
Qed.
(** the way from [n] down to [m], with the phrases above and the tokens on both sides *)
Inductive path : node -> list node -> list token -> node -> list node -> list token -> Prop :=
| path_here : forall n sp, path n sp [] n sp []
| path_kid : forall ty l k r sp a m sp' b, path k (Ph ty (l ++ k :: r) :: sp) a m sp' b ->
    path (Ph ty (l ++ k :: r)) sp (flat_map written l ++ a) m sp' (b ++ flat_map written r).
Lemma below_path : forall m n, below m n -> forall sp, exists a sp' b, path n sp a m sp' b.
Proof.
  intros m n B. induction B as [n|m k n I B IH]; intros sp; [exists [], sp, []; constructor|].
  destruct n as [ty kids|t|e]; [|destruct I|destruct I]. cbn [node_kids] in I. destruct (in_split _ _ I) as (l & r & ->).
  destruct (IH (Ph ty (l ++ k :: r) :: sp)) as (a & sp' & b & Pa). eexists _, _, _. exact (path_kid _ _ _ _ _ _ _ _ _ Pa).
Qed.
Lemma path_down : forall n sp a m sp' b, path n sp a m sp' b -> forall ty l k r, m = Ph ty (l ++ k :: r) ->
  path n sp (a ++ flat_map written l) k (Ph ty (l ++ k :: r) :: sp') (flat_map written r ++ b).
Proof.
  intros n sp a m sp' b P. induction P as [n sp|ty' l' k' r' sp a m sp' b P IH]; intros ty l k r ->.
  - pose proof (path_kid ty l k r sp [] k _ [] (path_here k _)) as Q. rewrite !app_nil_r in *. exact Q.
  - rewrite <- app_assoc, (app_assoc (flat_map written r)). apply path_kid. exact (IH ty l k r eq_refl).
Qed.
Lemma path_written : forall n sp a m sp' b, path n sp a m sp' b -> written n = a ++ written m ++ b.
Proof.
  intros n sp a m sp' b P. induction P as [n sp|ty l k r sp a m sp' b P IH]; [rewrite app_nil_r; reflexivity|].
  cbn [written]. rewrite flat_map_app. cbn [flat_map]. rewrite IH, <- !app_assoc. reflexivity.
Qed.
Lemma path_spine : forall n sp a m sp' b, path n sp a m sp' b -> forall found, Forall (fun t => hit t = false) a -> Forall (fun t => hit t = false) b ->
  spine_at o found n sp = spine_at o found m sp'.
Proof.
  intros n sp a m sp' b P. induction P as [n sp|ty l k r sp a m sp' b P IH]; intros found Ha Hb; [reflexivity|].
  apply Forall_app in Ha as (Hl & Ha). apply Forall_app in Hb as (Hb & Hr). cbn [spine_at].
  rewrite fold_left_app. cbn [fold_left]. rewrite (no_hits l) by exact Hl. rewrite (no_hits r) by exact Hr. exact (IH found Ha Hb).
Qed.
End Spine.
Lemma sorted_app : forall {A} (R : A -> A -> Prop) a b, StronglySorted R (a ++ b) -> forall x y, In x a -> In y b -> R x y.
Proof.
  intros A R a. induction a as [|z a IH]; intros b H x y I J; [destruct I|]. cbn [app] in H. inversion H as [|? ? S F]; subst. destruct I as [<-|I].
  - rewrite Forall_forall in F. apply F. apply in_or_app. right. exact J.
  - exact (IH b S x y I J).
Qed.
Theorem spine_found : forall d (n : list node) t above a b o, tokens_apart d -> path (d_root d) [] a (Tk t) above b -> n = above ->
  (Z.of_nat (t_offset t) < o <= Z.of_nat (t_end t))%Z -> NodeSpineAt d o = Some (above, t).
Proof.
  intros d n t above a b o Ap Pa _ Ho. unfold NodeSpineAt. pose proof (path_written _ _ _ _ _ _ Pa) as W. cbn [written app] in W. unfold tokens_apart in Ap. rewrite W in Ap.
  assert (Ha : Forall (fun x => hit o x = false) a).
  { apply Forall_forall. intros x I. pose proof (sorted_app _ _ _ Ap x t I (or_introl eq_refl)) as L. cbv beta in L. unfold hit. apply andb_false_iff. right. apply Z.leb_gt. lia. }
  assert (Hb : Forall (fun x => hit o x = false) b).
  { apply Forall_forall. intros x I. replace (a ++ t :: b) with ((a ++ [t]) ++ b) in Ap by (rewrite <- app_assoc; reflexivity).
    pose proof (sorted_app _ _ _ Ap t x (in_or_app a [t] t (or_intror (or_introl eq_refl))) I) as L. cbv beta in L. unfold hit. apply andb_false_iff. left. apply Z.ltb_ge. lia. }
  rewrite (path_spine o _ _ _ _ _ _ Pa None Ha Hb). cbn [spine_at].
  destruct (Z.ltb_spec (Z.of_nat (t_offset t)) o); [|lia]. destruct (Z.leb_spec o (Z.of_nat (t_end t))); [reflexivity|lia].
Qed.
(** a token of a phrase, and of a phrase in a phrase *)
Lemma spine_in : forall d ty kids t o, tokens_apart d -> below (Ph ty kids) (d_root d) -> In (Tk t) kids ->
  (Z.of_nat (t_offset t) < o <= Z.of_nat (t_end t))%Z -> exists above, NodeSpineAt d o = Some (Ph ty kids :: above, t).
Proof.
  intros d ty kids t o Ap Be I Ho. destruct (below_path _ _ Be []) as (a & sp & b & Pa). destruct (in_split _ _ I) as (l & r & ->).
  pose proof (path_down _ _ _ _ _ _ Pa ty l (Tk t) r eq_refl) as Pd. exists sp. exact (spine_found d _ t _ _ _ o Ap Pd eq_refl Ho).
Qed.
Lemma spine_in_in : forall d ty kids ty' kids' t o, tokens_apart d -> below (Ph ty kids) (d_root d) -> In (Ph ty' kids') kids -> In (Tk t) kids' ->
  (Z.of_nat (t_offset t) < o <= Z.of_nat (t_end t))%Z -> exists above, NodeSpineAt d o = Some (Ph ty' kids' :: Ph ty kids :: above, t).
Proof.
  intros d ty kids ty' kids' t o Ap Be I I' Ho. destruct (below_path _ _ Be []) as (a & sp & b & Pa). destruct (in_split _ _ I) as (l & r & ->). destruct (in_split _ _ I') as (l' & r' & ->).
  pose proof (path_down _ _ _ _ _ _ Pa ty l _ r eq_refl) as Pd. pose proof (path_down _ _ _ _ _ _ Pd ty' l' (Tk t) r' eq_refl) as Pe.
  exists sp. exact (spine_found d _ t _ _ _ o Ap Pe eq_refl Ho).
Qed.

(** ** The first import table *)
Lemma zero_first : forall d n, (exists text, d_text d = SetText text) -> (ComparePos zero_pos (begins d n) <= 0)%Z.
Proof.
  intros d n (text & T). unfold begins, pos_at. rewrite T. set (k := match FirstToken n with Some t => t_offset t | None => 0 end).
  rewrite positionAt_some by lia. destruct (lineAt_spec text (Z.of_nat k)) as (L & N & _); [lia|].
  unfold ComparePos. cbn [zero_pos p_line p_char].
  destruct (Z.ltb_spec 0 (lineAt (SetText text) (Z.of_nat k))); [lia|]. destruct (Z.eqb_spec 0 (lineAt (SetText text) (Z.of_nat k))); [|lia].
  set (c := (Z.of_nat k - _)%Z) in *. destruct (Z.ltb_spec 0 c); [lia|]. destruct (Z.eqb_spec 0 c); lia.
Qed.
Section Top.
Context {TX : Text} {TR : TrimSpace} (d : document).
Lemma foldM_still : forall A C (l : list A) (f : C -> A -> M C) b s r s', (forall (u : unit) x b b' s1, In x l -> f b x s = Done b' s1 -> s1 = s) -> foldM l f b s = Done r s' -> s' = s.
Proof.
  intros A C l f. induction l as [|x l IH]; intros b s r s' H E; cbn [foldM] in E; [injection E as _ <-; reflexivity|]. step E b1 s1 F.
  pose proof (H tt x b b1 s1 (or_introl eq_refl) F) as ->. exact (IH b1 s r s' (fun u y c c' s1 J => H u y c c' s1 (or_intror J)) E).
Qed.
Lemma inert_imports : forall n s s' fuel, inert n -> scanNode d fuel n s = Done tt s' -> st_imports s' = st_imports s.
Proof.
  intros n s s' fuel I E. destruct fuel as [|fuel]; [discriminate E|]. cbn [scanNode] in E. destruct n as [ty kids|t|e]; cbn [inert] in I.
  - destruct ty; try (destruct I; fail); unfold node_body in E; step E b s1 F; apply (pure_isDefine d) in F; subst s1; step E u s1 F.
    + assert (s1 = s) as -> by (destruct b; [injection F as _ <-; reflexivity|]; step F e s2 F2; unfold expr_body, construct in F2; step F2 x s3 F3; injection F3 as <- <-; injection F2 as _ <-; injection F as _ <-; reflexivity).
      cbn [typesToScanForChildren symbol_of] in E. unfold newPhpDocFromNode in E. step E tags s2 F2.
      assert (s2 = s).
      { refine (foldM_still _ _ _ _ _ _ _ _ _ F2). intros x c l l1 s3 J F3. destruct c as [ty ks|t|e]; [destruct ty|..]; try (injection F3 as _ <-; reflexivity). destruct (I ks J). }
      subst s2. injection E as <-. reflexivity.
    + assert (s1 = s) as -> by (destruct b; [injection F as _ <-; reflexivity|]; step F e s2 F2; unfold expr_body, construct in F2; step F2 x s3 F3; injection F3 as <- <-; injection F2 as _ <-; injection F as _ <-; reflexivity).
      cbn [typesToScanForChildren symbol_of] in E. injection E as <-. reflexivity.
  - unfold node_body in E. destruct (t_type t); try (injection E as <-; reflexivity). step E a s1 F. unfold newDirectoryConstantAccess in F. step F x s2 F2. injection F as _ <-.
    unfold tokenText in F2. apply lift_done in F2. destruct F2 as (_ & ->). injection E as <-. reflexivity.
  - injection E as <-. reflexivity.
Qed.
Lemma runs_inert : forall l s s' rest, Forall inert l -> runs d (map IStatement l ++ rest) s s' -> exists s1, st_imports s1 = st_imports s /\ runs d rest s1 s'.
Proof.
  induction l as [|n l IH]; intros s s' rest I R; [exists s; split; [reflexivity|exact R]|]. cbn [map app] in R. inversion I as [|? ? In_ Il]; subst.
  inversion R as [|i l0 s0 s1 s2 St R1]; subst. inversion St as [| |fuel n0 s0 s2 W E]; subst.
  destruct (IH s1 s' rest Il R1) as (s3 & E3 & R3). exists s3. split; [rewrite E3; exact (inert_imports n s s1 fuel In_ E)|exact R3].
Qed.
Theorem first_table : forall s ns us, analyse d = Done tt s -> imports_outside d -> main_namespace d ns us -> (exists text, d_text d = SetText text) ->
  Forall decl_ok us /\ exists t, declaration_table s = Some t /\ same_names (imports zero_pos ns us) t.
Proof.
  intros s ns us E Out Main T. destruct (analyse_items d s E Out) as (s1 & R & _ & Im). unfold declaration_table.
  assert (Fin : forall t added, tables_of d (st_imports s1) = [] ++ t :: added -> (forall t', In t' added -> exists n name, In (INamespace n name) (items d) /\ start t' = begins d n) ->
    ImportTableAtPos (st_imports s) zero_pos = Some t).
  { intros t added Ta A. rewrite Im, Ta. apply table_found; [intros X; destruct (X eq_refl)|]. intros x I. destruct (A x I) as (n & _ & _ & ->). exact (zero_first d n T). }
  destruct Main as [(skipped & n & rest & It & In_ & ->)|(Nn & -> & ->)].
  - rewrite It in R. destruct (runs_inert skipped initial s1 _ In_ R) as (s2 & I2 & R2). inversion R2 as [|i l0 s0 s3 s4 St R3]; subst.
    inversion St as [n0 name s0 s4 t Ti Ts Tn To| |]; subst. rewrite I2 in Ti. cbn [initial st_imports app] in Ti.
    destruct (runs_tables d rest s3 s1 R3 False [] (begins d n) (ns, [])) as (t1 & added & Ta & Sb & Sn & D & A); [intros []| |].
    { split; [constructor|]. rewrite Ti. split; [discriminate|]. exists t. split; [reflexivity|split; [exact Ts|exact Tn]]. }
    cbn [fst snd app] in Sn, D. split; [exact D|]. exists t1. split; [|exact Sn]. apply (Fin t1 added Ta). intros t' I'. destruct (A t' I') as (n' & name' & J & Sx). exists n', name'.
    split; [rewrite It; apply in_or_app; right; right; exact J|exact Sx].
  - destruct (runs_tables d (items d) initial s1 R True [] (root_pos d) ([], [])) as (t1 & added & Ta & Sb & Sn & D & A); [intros _; exact Nn|exact (place_initial d)|].
    cbn [fst snd app] in Sn, D. split; [exact D|]. exists t1. split; [|exact Sn]. exact (Fin t1 added Ta A).
Qed.
End Top.

(** ** Names *)
Lemma plain_valid : forall name, plain_name name -> valid (Name false name []) /\ ~ builtin (text (Name false name [])).
Proof.
  intros name (Ne & Nb & Ns & Nt). split; [split; [split; [exact Ne|split; [exact Ns|exact Nb]]|intros p []]|].
  intros I. apply Nt. unfold builtin, text, relative_text in I. cbn [absolute first rest join] in I. cbn [map In] in I |- *. tauto.
Qed.
Lemma not_bound : forall us k a, php_bound us k a = None -> exact_bound us k a = None.
Proof.
  intros us k a H. unfold php_bound, exact_bound in *. induction (rev us) as [|u l IH]; [reflexivity|]. cbn [find] in *.
  destruct (same_kind (u_kind u) k); cbn [andb] in *; [|exact (IH H)].
  destruct (same_name k (bound_name u) a) eqn:S; [discriminate H|]. destruct (str_eqb_spec (bound_name u) a) as [Eq|_]; [|exact (IH H)].
  rewrite Eq in S. destruct k; cbn [same_name] in S; rewrite str_eqb_refl in S; discriminate S.
Qed.
Lemma function_names : forall ns us name table, plain_name name -> Forall decl_ok us -> same_names (imports zero_pos ns us) table -> php_bound us ImportModel.UseFunction name = None ->
  forall fqn, In fqn (FunctionPossibleFQNs table (TS name name 0)) <-> In fqn [qualify ns name; qualify [] name].
Proof.
  intros ns us name table P D Sn Nb fqn. rewrite (same_functions _ _ _ Sn). destruct (plain_valid name P) as (V & B). set (pn := Name false name []) in *.
  change (TS name name 0) with (TS (text pn) (text pn) 0). unfold FunctionPossibleFQNs. rewrite valid_split by exact V. change (rest pn) with (@nil gostr). cbv iota.
  rewrite table_functions, imports_get, not_bound by assumption. cbn [option_map ts_fqn]. rewrite placed, valid_fqn, imports_namespace by assumption. cbn [absolute pn].
  change (text pn) with name. change (in_namespace ns pn) with (match ns with [] => BSL :: name | _ => BSL :: ns ++ BSL :: name end).
  assert (Q : match ns with [] => BSL :: name | _ => BSL :: ns ++ BSL :: name end = qualify ns name) by (destruct ns; reflexivity). rewrite Q.
  change (BSL :: name) with (qualify [] name). destruct (str_eqb_spec (qualify ns name) (qualify [] name)) as [->|_]; cbn [In]; tauto.
Qed.

(** ** The symbol under the cursor *)
Lemma asym_ind' : forall (P : asym -> Prop), (forall a kids, Forall P kids -> P (ASym a kids)) -> forall s, P s.
Proof.
  intros P H. fix IH 1. intros [a kids]. apply H. induction kids as [|k kids IHk]; constructor; [apply IH|exact IHk].
Qed.
Definition sound (pos : position) (from : list adata) (o : option adata) : Prop :=
  forall a, o = Some a -> In a from /\ has_types (a_kind a) = true /\ touches pos (a_range a).
Lemma types_sound : forall pos s found, exists o b, types_at pos found s = (o, b) /\ (o = fst found \/ sound pos (preorder s) o).
Proof.
  intros pos. induction s as [a kids IH] using asym_ind'. intros (found, stop).
  assert (Kids : forall from f0 b0, (forall k, In k kids -> forall x, In x (preorder k) -> In x from) -> exists o b, fold_left (types_at pos) kids (f0, b0) = (o, b) /\ (o = f0 \/ sound pos from o)).
  { intros from. induction IH as [|k kids Hk _ IHk]; intros f0 b0 Sub; cbn [fold_left]; [exists f0, b0; split; [reflexivity|left; reflexivity]|].
    destruct (Hk (f0, b0)) as (o & b & -> & So). destruct (IHk o b) as (o' & b' & -> & So'); [intros k' I; apply Sub; right; exact I|]. exists o', b'. split; [reflexivity|].
    destruct So' as [->|So']; [|right; exact So']. destruct So as [->|So]; [left; reflexivity|]. right. intros x Ex. destruct (So x Ex) as (I & R). split; [apply (Sub k); [left; reflexivity|exact I]|exact R]. }
  assert (Sub : forall k, In k kids -> forall x, In x (preorder k) -> In x (preorder (ASym a kids))).
  { intros k I x J. right. apply in_flat_map. exists k. split; assumption. }
  cbn [types_at fst snd]. destruct stop; [exists found, true; split; [reflexivity|left; reflexivity]|].
  destruct ((IsInRange pos (a_range a) =? 0)%Z || ((0 <? IsInRange pos (a_range a))%Z && (ComparePos pos (r_end (a_range a)) =? 0)%Z)) eqn:Hit.
  - destruct (Kids (preorder (ASym a kids)) (if has_types (a_kind a) then Some a else found) false Sub) as (o & b & -> & So). exists o, b. split; [reflexivity|].
    destruct So as [->|So]; [|right; exact So]. destruct (has_types (a_kind a)) eqn:Ht; [|left; reflexivity]. right. intros x [= <-]. split; [left; reflexivity|split; [exact Ht|]].
    apply orb_prop in Hit as [Hit|Hit]; [left; apply Z.eqb_eq; exact Hit|right]. apply andb_prop in Hit as (_ & Hit). apply Z.eqb_eq. exact Hit.
  - destruct (IsInRange pos (a_range a) <? 0)%Z; [exists found, true; split; [reflexivity|left; reflexivity]|].
    destruct (0 <? IsInRange pos (a_range a))%Z; [exists found, false; split; [reflexivity|left; reflexivity]|].
    exact (Kids (preorder (ASym a kids)) found false Sub).
Qed.
Lemma found_sound : forall pos syms a, HasTypesAtPos syms pos = Some a -> In a (flat_map preorder syms) /\ has_types (a_kind a) = true /\ touches pos (a_range a).
Proof.
  intros pos syms a H. unfold HasTypesAtPos in H.
  assert (G : forall l f0 b0, (f0 = None \/ sound pos (flat_map preorder syms) f0) -> (forall k, In k l -> In k syms) -> forall o b, fold_left (types_at pos) l (f0, b0) = (o, b) -> o = None \/ sound pos (flat_map preorder syms) o).
  { induction l as [|k l IH]; intros f0 b0 S0 Sub o b E; cbn [fold_left] in E; [injection E as <- _; exact S0|]. destruct (types_sound pos k (f0, b0)) as (o1 & b1 & E1 & So). rewrite E1 in E.
    apply (IH o1 b1) in E; [exact E| |intros k' I; apply Sub; right; exact I]. destruct So as [->|So]; [exact S0|]. right. intros x Ex. destruct (So x Ex) as (I & R). split; [|exact R].
    apply in_flat_map. exists k. split; [apply Sub; left; reflexivity|exact I]. }
  destruct (fold_left (types_at pos) syms (None, false)) as (o, b) eqn:E. cbn [fst] in H. subst o. destruct (G syms None false (or_introl eq_refl) (fun k I => I) _ _ E) as [X|So]; [discriminate X|]. exact (So a eq_refl).
Qed.
