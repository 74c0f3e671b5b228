(** The analysis and the reference index together. *)
From Coq Require Import String.
From Coq Require Import List Bool ZArith Lia.
From Coq.Strings Require Import Byte.
From Verif Require Import Base.Bytes Base.BytesProofs Base.Utf8 Base.Utf8Proofs Base.Protocol Symbols.Symbols Symbols.KeysModel Types.TypesModel
  Rpc.StreamModel Analyse.SyntaxModel Analyse.AnalyseModel Analyse.AnalyseSpec Analyse.DeclareSpec Analyse.UseSpec Analyse.RefModel
  Storage.KvModel Store.FilterModel Store.StoreModel Store.StoreSpec Store.StoreProofs Store.LookupProofs Whole.IndexSpec Whole.RefSpec
  Types.ImportModel Types.ImportSpec Analyse.UseProofs Text.PositionModel.
Import ListNotations.
Open Scope list_scope.
Open Scope nat_scope.

Lemma valid_through : forall s, valid_utf8 s -> forall fuel, length s <= fuel -> through_runes fuel s = s.
Proof.
  induction 1 as [|s r w N E V _ IH]; intros fuel L; [destruct fuel; reflexivity|].
  destruct s as [|b s]; [destruct (N eq_refl)|]. destruct fuel as [|fuel]; [cbn [length] in L; lia|].
  cbn [through_runes]. rewrite E. pose proof (rune_width b s) as W. rewrite E in W. cbn [snd] in W.
  assert (B1 : N.eqb r RuneError && (w =? 1) = false).
  { destruct (N.eqb_spec r RuneError) as [->|]; [|reflexivity]. destruct (Nat.eqb_spec w 1) as [->|]; [destruct V; auto|reflexivity]. }
  rewrite B1, IH; [apply firstn_skipn|]. rewrite skipn_length. cbn [length] in *. lia.
Qed.

Section Proofs.
Context {TX : Text} {TR : TrimSpace} {X : XorFilter}.

Lemma member_refs : forall tables a k name ref, a_kind a = k -> ts_original (a_name a) = name -> member_use k name ref -> SymToRefs tables a = Some [ref].
Proof.
  intros tables a k name ref Ka Na M. unfold SymToRefs, MemberName. rewrite Ka, Na. destruct k; try (destruct M; fail); cbn [member_use] in M.
  - destruct M as (n & -> & ->). reflexivity.
  - rewrite M. reflexivity.
  - rewrite M. reflexivity.
  - destruct M as (V & -> & Nn & D). destruct name as [|b n]; [destruct (Nn eq_refl)|]. unfold string_of_runes_of. rewrite (valid_through _ V _ (le_n _)).
    destruct (byte_eqb b DOLLAR) eqn:Eb; [|reflexivity]. apply byte_eqb_eq in Eb. subst b. destruct (D eq_refl).
  - rewrite M. reflexivity.
Qed.

Lemma Forall2_concat_in : forall {A Y} (R : A -> list Y -> Prop) l ls a, Forall2 R l ls -> In a l -> exists e, R a e /\ forall y, In y e -> In y (concat ls).
Proof.
  intros A Y R l ls a F. induction F as [|x e l ls Rx F IH]; intros I; [destruct I|]. destruct I as [<-|I].
  - exists e. split; [exact Rx|]. intros y Iy. cbn [concat]. apply in_or_app. left. exact Iy.
  - destruct (IH I) as (e' & Re & Ie). exists e'. split; [exact Re|]. intros y Iy. cbn [concat]. apply in_or_app. right. auto.
Qed.
Lemma concat_Forall2_in : forall {A Y} (R : A -> list Y -> Prop) l ls y, Forall2 R l ls -> In y (concat ls) -> exists a e, In a l /\ R a e /\ In y e.
Proof.
  intros A Y R l ls y F. induction F as [|x e l ls Rx F IH]; intros I; [destruct I|]. cbn [concat] in I. apply in_app_or in I as [I|I].
  - exists x, e. split; [left; reflexivity|auto].
  - destruct (IH I) as (a & e' & Ia & H). exists a, e'. split; [right; exact Ia|exact H].
Qed.

(** what a symbol refers to is in the index *)
Lemma entered : forall h u sd f s a refs ref, latest h u = Some sd -> handed sd f s -> haveReferences u = true ->
  In a (flat_map preorder (st_out s)) -> SymToRefs (st_imports s) a = Some refs -> In ref refs -> referenced h ref (Loc u (a_range a)).
Proof.
  intros h u sd f s a refs ref L (E & _ & entries & Er & F) HR Ia Sa Ir.
  pose proof (proj2 (latest_in h u sd L)) as Eu. destruct (Forall2_concat_in _ _ _ a F Ia) as (e & (own & others & refs' & Ee & _ & Sa' & Eo) & Ie).
  rewrite Sa in Sa'. injection Sa' as <-. rewrite Eu, HR in Eo.
  exists sd, (EntryInfo ref (a_range a)). cbn [l_uri l_range ei_ref ei_range]. repeat split; auto.
  rewrite Er. apply Ie. rewrite Ee. apply in_or_app. right. rewrite Eo. apply in_map_iff. exists ref. auto.
Qed.
(** what is in the index is a symbol of a file *)
Lemma entered_by : forall h ref loc sd f s, latest h (l_uri loc) = Some sd -> handed sd f s -> referenced h ref loc ->
  haveReferences (l_uri loc) = true /\ exists a, In a (flat_map preorder (st_out s)) /\
    (ReferenceFQN a = Some ref \/ l_range loc = a_range a /\ exists refs, SymToRefs (st_imports s) a = Some refs /\ In ref refs).
Proof.
  intros h ref loc sd f s L (E & _ & entries & Er & F) (sd' & i & L' & HR & Ii & Ri & Rr). rewrite L in L'. injection L' as <-. split; [exact HR|].
  rewrite Er in Ii. destruct (concat_Forall2_in _ _ _ i F Ii) as (a & e & Ia & (own & others & refs & Ee & Ow & Sa & Eo) & Ie).
  exists a. split; [exact Ia|]. rewrite Ee in Ie. apply in_app_or in Ie as [Ie|Ie].
  - left. destruct (ReferenceFQN a) as [r|]; [|subst own; destruct Ie]. destruct Ow as (rg & ->). destruct Ie as [<-|[]]. cbn [ei_ref] in Ri. rewrite Ri. reflexivity.
  - right. rewrite Eo in Ie. destruct (haveReferences (d_uri sd)); [|destruct Ie]. apply in_map_iff in Ie as (r & <- & Ir). cbn [ei_ref ei_range] in *. subst r.
    split; [auto|]. exists refs. auto.
Qed.
Lemma member_name_ref : forall a n, MemberName a = Some n -> uses_ref a (B "." ++ n).
Proof.
  intros a n H. unfold MemberName in H. unfold uses_ref. destruct (a_kind a); try discriminate H; injection H as <-; try reflexivity.
  eexists. split; [reflexivity|]. intros V. destruct (ts_original (a_name a)) as [|b s]; [left; reflexivity|]. unfold string_of_runes_of. rewrite (valid_through _ V _ (le_n _)).
  destruct (byte_eqb b DOLLAR); [left; reflexivity|right; reflexivity].
Qed.
Lemma refs_for : forall tables a refs ref, SymToRefs tables a = Some refs -> In ref refs -> uses_ref a ref.
Proof.
  intros tables a refs ref S I. unfold SymToRefs in S. pose proof (member_name_ref a) as M. unfold uses_ref in *. unfold MemberName in *.
  destruct (a_kind a); try (injection S as <-; destruct I as [<-|[]]; exact (M _ eq_refl)); try (injection S as <-; destruct I; fail);
    try (injection S as <-; apply in_map_iff in I as (t & <- & It); exists t; auto; fail).
  - destruct (ImportTableAtPos tables _) as [table|]; [|discriminate S]. destruct (NewTypeString _) as [name|]; [|discriminate S]. injection S as <-.
    apply in_map_iff in I as (fqn & <- & If). exists table, name, fqn. auto.
  - injection S as <-. destruct (IsNameRelative _); [destruct I|]. apply in_map_iff in I as (t & <- & It). exists t. auto.
Qed.
Lemma declares_for : forall a ref, ReferenceFQN a = Some ref -> declares_ref a ref.
Proof. intros a ref H. unfold ReferenceFQN in H. unfold declares_ref. destruct (a_kind a); try discriminate H; injection H as <-; reflexivity. Qed.
(** imports *)
Lemma same_functions : forall a b t, same_names a b -> FunctionPossibleFQNs b t = FunctionPossibleFQNs a t.
Proof.
  intros a b t (N & C & F & _). unfold FunctionPossibleFQNs. destruct (GetFirstAndRestParts t) as (f, r). rewrite N. specialize (C f). specialize (F f). unfold names_of in *.
  destruct r; [destruct (am_get (functions b) f), (am_get (functions a) f)|destruct (am_get (classes b) f), (am_get (classes a) f)];
    cbn in *; try discriminate; congruence.
Qed.
Lemma bound_app : forall us vs k n, php_bound vs k n = None -> php_bound (us ++ vs) k n = php_bound us k n.
Proof.
  intros us vs k n H. unfold php_bound in *. rewrite rev_app_distr. induction (rev vs) as [|v l IH]; [reflexivity|]. cbn [find app] in *.
  destruct (same_kind (u_kind v) k && same_name k (bound_name v) n); [discriminate H|exact (IH H)].
Qed.
End Proofs.
