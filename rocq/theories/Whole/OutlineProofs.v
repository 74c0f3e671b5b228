(** The outline shows the declarations of the analysed file. *)
From Coq Require Import String.
From Coq Require Import List Bool ZArith.
From Verif Require Import Base.Bytes Base.Protocol Symbols.Symbols Ide.TreeModel Ide.TreeSpec Ide.FindProofs
  Analyse.SyntaxModel Analyse.AnalyseModel Analyse.AnalyseSpec Whole.OutlineModel Whole.OutlineSpec.
Import ListNotations.
Open Scope list_scope.

Lemma asym_nested : forall P : asym -> Prop, (forall a kids, (forall k, In k kids -> P k) -> P (ASym a kids)) -> forall s, P s.
Proof.
  intros P step. fix each 1. intros [a kids]. apply step. induction kids as [|x l IH]; intros k I; [destruct I|].
  destruct I as [<-|I]; [apply each|apply IH; exact I].
Qed.

Lemma below_up : forall m n o, below m n -> below n o -> below m o.
Proof. intros m n o A C. induction C as [n|n k o I C IH]; [exact A|]. apply (below_kid m k o I (IH A)). Qed.
Lemma outlined_up : forall d m n path, below m n -> outlined d m path -> outlined d n path.
Proof.
  intros d m n path L O. inversion O as [n0|n0 q a x rest C S En R|n0 a x D En]; subst.
  - constructor.
  - apply (outlined_node d n q a x rest); [exact (below_up _ _ _ C L)|exact S|exact En|exact R].
  - apply (outlined_comment d n a x); assumption.
Qed.

Section Description.
Variable description : adata -> gostr.
Definition data_of (a : adata) : sym_data := Data (outline_kind (a_kind a)) (outline_name a) (description a) (a_range a) false.
Definition declares (k : akind) : bool := is_declaration (outline_kind k).
Lemma declares_iff : forall k, declares k = true <-> exists n, protocol_kind k = Some n.
Proof. intros k. split; [destruct k; try discriminate; intros _; eexists; reflexivity|intros (n & E); destruct k; try discriminate E; reflexivity]. Qed.
Lemma data_entry : forall a, declares (a_kind a) = true -> entry (a_kind a) (a_name a) (a_range a) (shown (data_of a)).
Proof.
  intros a D. unfold entry, data_of, shown, shown_name, outline_name. cbn. destruct (a_kind a); try discriminate D; repeat split.
Qed.

Lemma declared_path : forall d s around n, comes_from d n s -> forall ar x, In (ar, x) (declarations around (symbol_of description s)) ->
  exists rest, ar = around ++ rest /\ outlined d n (map shown (rest ++ [x])).
Proof.
  intros d. refine (asym_nested _ _). intros a kids IH around n C ar x I. cbn [symbol_of declarations] in I. fold (data_of a) in I.
  change (sy_kind (data_of a)) with (outline_kind (a_kind a)) in I. fold (declares (a_kind a)) in I.
  inversion C as [n0 m a0 kids0 L S Dc F|n0 a0 D Dc]; subst.
  - assert (K : forall around', In (ar, x) (flat_map (declarations around') (if is_block (a_kind a) then map (symbol_of description) kids else [])) ->
      exists rest, ar = around' ++ rest /\ outlined d m (map shown (rest ++ [x]))).
    { intros around' J. destruct (is_block (a_kind a)); [|destruct J]. apply in_flat_map in J as (y & Iy & J). apply in_map_iff in Iy as (c & <- & Ic).
      exact (IH c Ic around' m (proj1 (Forall_forall _ _) F c Ic) ar x J). }
    destruct (declares (a_kind a)) eqn:Dk.
    + destruct I as [E|I].
      * injection E as <- <-. exists []. split; [rewrite app_nil_r; reflexivity|]. cbn. apply (outlined_node d n m a); [exact L|exact S|apply data_entry; exact Dk|constructor].
      * destruct (K _ I) as (rest & -> & O). exists (data_of a :: rest). split; [rewrite <- app_assoc; reflexivity|].
        cbn [app map]. apply (outlined_node d n m a); [exact L|exact S|apply data_entry; exact Dk|exact O].
    + destruct (K _ I) as (rest & -> & O). exists rest. split; [reflexivity|]. exact (outlined_up d m n _ L O).
  - assert (Dk : declares (a_kind a) = true) by (destruct D as ([->| ->] & _); reflexivity). rewrite Dk in I.
    assert (E : (around, data_of a) = (ar, x)) by (destruct I as [E|I]; [exact E|destruct (is_block (a_kind a)); destruct I]).
    injection E as <- <-. exists []. split; [rewrite app_nil_r; reflexivity|]. cbn. apply (outlined_comment d n a); [exact D|apply data_entry; exact Dk].
Qed.

Lemma all_shown : forall s, all_entries (file_outline description s) =
  map (fun x => (map shown (fst x), shown (snd x))) (flat_map (declarations []) (map (symbol_of description) (st_out s))).
Proof. intros s. unfold all_entries, file_outline. apply outline_document. Qed.

Lemma top_shown : forall s before a inside after, st_out s = before ++ ASym a inside :: after -> declares (a_kind a) = true ->
  In ([], shown (data_of a)) (all_entries (file_outline description s)).
Proof.
  intros s before a inside after E D. rewrite all_shown. apply (in_map (fun x => (map shown (fst x), shown (snd x))) _ ([], data_of a)). apply in_flat_map. exists (symbol_of description (ASym a inside)).
  split; [apply in_map; rewrite E; apply in_or_app; right; left; reflexivity|]. cbn [symbol_of declarations]. fold (data_of a).
  change (sy_kind (data_of a)) with (outline_kind (a_kind a)). fold (declares (a_kind a)). rewrite D. left. reflexivity.
Qed.
Lemma member_shown : forall s before a inside after b1 b kids b2, st_out s = before ++ ASym a inside :: after -> declares (a_kind a) = true -> is_block (a_kind a) = true ->
  inside = b1 ++ ASym b kids :: b2 -> declares (a_kind b) = true ->
  In ([shown (data_of a)], shown (data_of b)) (all_entries (file_outline description s)).
Proof.
  intros s before a inside after b1 b kids b2 E D Bl Ei Db. rewrite all_shown. apply (in_map (fun x => (map shown (fst x), shown (snd x))) _ ([data_of a], data_of b)).
  apply in_flat_map. exists (symbol_of description (ASym a inside)).
  split; [apply in_map; rewrite E; apply in_or_app; right; left; reflexivity|]. cbn [symbol_of declarations]. fold (data_of a).
  change (sy_kind (data_of a)) with (outline_kind (a_kind a)). fold (declares (a_kind a)). rewrite D, Bl. right. apply in_flat_map. exists (symbol_of description (ASym b kids)).
  split; [apply in_map; rewrite Ei; apply in_or_app; right; left; reflexivity|]. cbn [symbol_of declarations app]. fold (data_of b).
  change (sy_kind (data_of b)) with (outline_kind (a_kind b)). fold (declares (a_kind b)). rewrite Db. left. reflexivity.
Qed.
End Description.
