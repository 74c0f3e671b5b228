(** The parameters that are read from the header of a function. *)
From Coq Require Import String.
From Coq Require Import List Bool ZArith.
From Coq.Strings Require Import Byte.
From Verif Require Import Base.Bytes Base.Protocol Symbols.KeysModel Text.TextModel Text.PositionModel Rpc.StreamModel
  Types.TypesModel Types.ImportModel Ide.VariableModel Analyse.SyntaxModel Analyse.AnalyseModel Analyse.AnalyseSpec Rename.TraceSpec Rename.TraceProofs.
Import ListNotations.
Open Scope list_scope.
Open Scope nat_scope.

Lemma val_foldM_find : forall A B (l : list A) (f : B -> A -> M B) b x (R : B -> Prop), In x l -> (forall b, val (f b x) R) ->
  (forall b y, In y l -> R b -> val (f b y) R) -> val (foldM l f b) R.
Proof.
  intros A B l f b x R I H K. revert b. induction l as [|y l IH]; intros b; [destruct I|]. cbn [foldM]. destruct I as [->|I].
  - apply (val_bind _ _ _ _ R _ (H b)). intros c Rc. apply val_foldM; [exact Rc|]. intros c' z Z Rc'. exact (K c' z (or_intror Z) Rc').
  - apply val_bind_any. intros c. apply IH; [exact I|]. intros c' z Z. exact (K c' z (or_intror Z)).
Qed.
Section Parameters.
Context {TX : Text} {TR : TrimSpace} (d : document) (t : token) (name : gostr).
Hypothesis Tt : t_type t = TkVariableName.
Hypothesis Nt : GetNodeText d (Tk t) = Some name.
Definition is_it (p : param) : Prop := pm_name p = name /\ pm_range p = NodeRange d (Tk t).
Definition has_it (l : list param) : Prop := exists p, In p l /\ is_it p.
Lemma loop_keeps : forall kids p a b, (forall u, In (Tk u) kids -> t_type u <> TkVariableName) -> is_it p -> val (parameter_loop d kids p a b) is_it.
Proof.
  induction kids as [|c kids IH]; intros p a b N P; cbn [parameter_loop]; [exact (val_ret _ _ _ P)|].
  assert (N' : forall u, In (Tk u) kids -> t_type u <> TkVariableName) by (intros u U; exact (N u (or_intror U))).
  assert (A : forall v e f, val (parameter_loop d kids (add_value p v) e f) is_it) by (intros v e f; apply IH; [exact N'|exact P]).
  assert (A0 : forall e f, val (parameter_loop d kids p e f) is_it) by (intros e f; exact (IH _ _ _ N' P)).
  destruct c as [ty ks|u|u]; [| |apply A0].
  - destruct ty; try (destruct a; [apply val_bind_any; intros v; apply A|apply A0]).
    + apply val_bind_any; intros v. apply val_bind_any; intros _. destruct a; [apply val_bind_any; intros w; apply A|apply A0].
    + apply val_bind_any; intros v. apply val_bind_any; intros _. apply A0.
  - pose proof (N u (or_introl eq_refl)) as Nu.
    destruct (t_type u) eqn:T; try apply A0; try congruence; cbv zeta; destruct (b && _); try apply A0; destruct a; try apply A0; apply val_bind_any; intros v; apply A.
Qed.
Lemma loop_finds : forall before after p a b, (forall u, In (Tk u) after -> t_type u <> TkVariableName) -> val (parameter_loop d (before ++ Tk t :: after) p a b) is_it.
Proof.
  induction before as [|c kids IH]; intros after p a b N; cbn [app parameter_loop].
  - rewrite Tt. apply (val_bind _ _ _ _ _ _ (val_tokenText d t)). intros nm E. apply loop_keeps; [exact N|]. split; [|reflexivity]. cbn [pm_name]. change (GetNodeText d (Tk t) = Some nm) in E. congruence.
  - assert (A : forall p e f, val (parameter_loop d (kids ++ Tk t :: after) p e f) is_it) by (intros; apply IH; exact N).
    destruct c as [ty ks|u|u]; [| |apply A].
    + destruct ty; try (destruct a; [apply val_bind_any; intros v; apply A|apply A]).
      * apply val_bind_any; intros v. apply val_bind_any; intros _. destruct a; [apply val_bind_any; intros w; apply A|apply A].
      * apply val_bind_any; intros v. apply val_bind_any; intros _. apply A.
    + destruct (t_type u); try apply A; try (apply val_bind_any; intros v; apply A); cbv zeta; destruct (b && _); try apply A; destruct a; try apply A; apply val_bind_any; intros v; apply A.
Qed.
Lemma params_find : forall ps before after, In (Ph PhParameterDeclaration (before ++ Tk t :: after)) ps -> (forall u, In (Tk u) after -> t_type u <> TkVariableName) ->
  val (analyseParameterDeclarationList d ps) has_it.
Proof.
  intros ps before after I N. unfold analyseParameterDeclarationList. apply (val_foldM_find _ _ _ _ _ _ has_it I).
  - intros l. cbn [newParameter]. apply (val_bind _ _ _ _ _ _ (loop_finds before after _ _ _ N)). intros p P. apply val_ret. exists p. split; [apply in_elt|exact P].
  - intros l y _ H. destruct y as [ty ks|u|u]; try exact (val_ret _ _ _ H). destruct ty; try exact (val_ret _ _ _ H).
    apply val_bind_any. intros p. apply val_ret. destruct H as (q & Iq & Q). exists q. split; [apply in_app_iff; auto|exact Q].
Qed.
Lemma has_more : forall a b, has_it a -> has_it (a ++ b).
Proof. intros a b (p & I & P). exists p. split; [apply in_app_iff; auto|exact P]. Qed.
Lemma has_last : forall a b, has_it b -> has_it (a ++ b).
Proof. intros a b (p & I & P). exists p. split; [apply in_app_iff; auto|exact P]. Qed.
Section Header.
Variables (hs ps before after : list node).
Hypothesis Ih : In (Ph PhParameterDeclarationList ps) hs.
Hypothesis Ip : In (Ph PhParameterDeclaration (before ++ Tk t :: after)) ps.
Hypothesis N : forall u, In (Tk u) after -> t_type u <> TkVariableName.
Lemma function_header_finds : forall s, val (function_header d s hs) (fun s => has_it (sg_params s)).
Proof.
  intros s. unfold function_header. apply (val_foldM_find _ _ _ _ _ _ (fun s => has_it (sg_params s)) Ih).
  - intros s1. apply (val_bind _ _ _ _ _ _ (params_find ps before after Ip N)). intros l L. apply val_ret. exact (has_last _ _ L).
  - intros s1 c _ S. destruct c as [ty ks|u|u]; try exact (val_ret _ _ (fun s => has_it (sg_params s)) S).
    + destruct ty; try exact (val_ret _ _ (fun s => has_it (sg_params s)) S).
      all: first [ apply val_bind_any; intros x; apply val_bind_any; intros y; apply val_ret; exact S | apply val_bind_any; intros x; apply val_ret; exact (has_more _ _ S)].
    + destruct (t_type u); try exact (val_ret _ _ (fun s => has_it (sg_params s)) S). apply val_bind_any; intros x; apply val_bind_any; intros y; apply val_ret; exact S.
Qed.
Lemma method_header_finds : forall s, val (method_header d s hs) (fun s => has_it (sg_params s)).
Proof.
  intros s. unfold method_header. apply (val_foldM_find _ _ _ _ _ _ (fun s => has_it (sg_params s)) Ih).
  - intros s1. apply (val_bind _ _ _ _ _ _ (params_find ps before after Ip N)). intros l L. apply val_ret. exact (has_last _ _ L).
  - intros s1 c _ S. destruct c as [ty ks|u|u]; try exact (val_ret _ _ (fun s => has_it (sg_params s)) S).
    + destruct ty; try exact (val_ret _ _ (fun s => has_it (sg_params s)) S).
      all: first [ apply val_bind_any; intros x; apply val_ret; first [exact S|exact (has_more _ _ S)]
                 | destruct (getMemberModifier ks) as ((v, st), m); apply val_ret; exact S ].
    + destruct (t_type u); try exact (val_ret _ _ (fun s => has_it (sg_params s)) S). apply val_bind_any; intros x; apply val_ret; exact S.
Qed.
Lemma closure_header_finds : forall l, val (foldM hs (fun ps c => match c with
    | Ph PhParameterDeclarationList qs => qs <- analyseParameterDeclarationList d qs ;; ret (ps ++ qs)
    | Ph PhAnonymousFunctionUseClause us => analyseUseClause d us ;;; ret ps
    | _ => ret ps
    end) l) has_it.
Proof.
  intros l. apply (val_foldM_find _ _ _ _ _ _ has_it Ih).
  - intros l1. apply (val_bind _ _ _ _ _ _ (params_find ps before after Ip N)). intros qs L. apply val_ret. exact (has_last _ _ L).
  - intros l1 c _ S. destruct c as [ty ks|u|u]; try exact (val_ret _ _ has_it S). destruct ty; try exact (val_ret _ _ has_it S).
    all: apply val_bind_any; intros x; apply val_ret; first [exact S|exact (has_more _ _ S)].
Qed.
End Header.
End Parameters.
