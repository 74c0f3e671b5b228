(** Claims about types and names. *)
From Coq Require Import String.
From Coq Require Import List Bool ZArith Lia.
From Coq.Strings Require Import Byte.
From Verif Require Import Base.Bytes Base.BytesProofs Symbols.Symbols Symbols.KeysModel Types.TypesModel Types.TypesSpec Types.TypesProofs
  Store.SearchSpec Store.SearchProofs.
Import ListNotations.
Open Scope list_scope.

(** ** C31 array suffixes *)
(** An element text followed by n pairs of brackets is read as the element with
    array depth n and printed back identically, unless it is empty, the single
    character "]" or one of the two alias names. *)
Theorem C31_array_suffixes_partial : forall e n,
  element e -> e <> [] -> e <> B "]" -> ~ alias_name e ->
  exists t, NewTypeString (e ++ arrays n) = Some t
    /\ ts_original t = e /\ ts_fqn t = e /\ ts_array t = Z.of_nat n
    /\ ts_ToString t = e ++ arrays n.
Proof.
  intros e n EL NE NB NA. rewrite NewTypeString_spec by assumption. destruct e as [|x e]; [congruence|].
  destruct (str_eqb_spec (x :: e) (B "]")) as [H|_]; [contradiction|]. rewrite canonical_other by assumption.
  eexists. repeat (split; [reflexivity|]). apply ToString_spec.
Qed.
Print Assumptions C31_array_suffixes_partial.

(** Removing an array level undoes one pair of brackets, down to none; this
    holds for alias names too. *)
Theorem C31_dearray : forall e n t,
  element e -> e <> [] -> NewTypeString (e ++ arrays n) = Some t ->
  match n with
  | O => Dearray t = (t, false)
  | S m => exists t', NewTypeString (e ++ arrays m) = Some t' /\ Dearray t = (t', true)
  end.
Proof.
  intros e n t EL NE E. rewrite NewTypeString_spec in E by assumption. destruct e as [|x e]; [congruence|].
  destruct (str_eqb (x :: e) (B "]")) eqn:X; [discriminate|]. injection E as <-. destruct n as [|m]; [reflexivity|].
  rewrite NewTypeString_spec by assumption. rewrite X. eexists. split; [reflexivity|].
  unfold Dearray. cbn [ts_array ts_fqn ts_original]. destruct (Z.eqb_spec (Z.of_nat (S m)) 0) as [H|_]; [lia|].
  do 2 f_equal. lia.
Qed.
Print Assumptions C31_dearray.

(** Reading a type fails exactly for "]" followed by pairs of brackets: every
    other text is read. *)
Theorem C31_fails_exactly : forall s, NewTypeString s = None <-> exists n, s = B "]" ++ arrays n.
Proof.
  intros s. split.
  - intros H. destruct (split_arrays s) as (e & n & -> & EL). rewrite NewTypeString_spec in H by assumption.
    destruct e as [|x e]; [discriminate|]. destruct (str_eqb_spec (x :: e) (B "]")) as [->|_]; [|discriminate]. eauto.
  - intros [n ->]. rewrite NewTypeString_spec; [reflexivity|]. intros p H. assert (L := f_equal (@length _) H).
    rewrite app_length in L. cbn in L. lia.
Qed.
Print Assumptions C31_fails_exactly.

Theorem C31_never_fails_refuted : exists s, NewTypeString s = None.
Proof. exists (B "]"). reflexivity. Qed.
Print Assumptions C31_never_fails_refuted.

(** not printed back identically: a bare pair of brackets, and alias names *)
Theorem C31_printed_back_refuted : exists s t, NewTypeString s = Some t /\ ts_ToString t <> s.
Proof. exists (B "[]"). eexists. split; [reflexivity|]. vm_compute. discriminate. Qed.
Print Assumptions C31_printed_back_refuted.

Example C31_hypotheses_met : element (B "\App\Shop") /\ ~ alias_name (B "\App\Shop")
  /\ NewTypeString (B "\App\Shop[][]") = Some (TS (B "\App\Shop") (B "\App\Shop") 2).
Proof.
  split; [|split; [intros [H|H]; discriminate|reflexivity]].
  intros p H. assert (L := last_last (p ++ [x5b]) x5d NUL). rewrite <- app_assoc in L. cbn [app] in L. change [x5b; x5d] with (B "[]") in L.
  rewrite <- H in L. vm_compute in L. discriminate.
Qed.

(** ** C33 unions *)
(** Merging keeps each fully qualified type once ... *)
Theorem C33_unions_without_duplicates : forall t u, NoDup (fqns t) ->
  NoDup (fqns (tc_merge t u))
  /\ (forall f, In f (fqns (tc_merge t u)) <-> In f (fqns t) \/ In f (fqns u)).
Proof.
  intros t u ND. split; [now apply tc_merge_nodup|]. intros f. rewrite tc_merge_fresh. unfold fqns at 1. rewrite map_app, in_app_iff.
  change (map ts_fqn (fresh (fqns t) u)) with (fqns (fresh (fqns t) u)). rewrite fresh_in. change (map ts_fqn t) with (fqns t).
  split; [intuition|]. intros [H|H]; [auto|]. destruct (in_dec str_eq_dec f (fqns t)); auto.
Qed.
Print Assumptions C33_unions_without_duplicates.

(** ... in order of first appearance: the first union unchanged, followed by
    elements of the second in their order, each the first of its name; *)
Theorem C33_first_appearance : forall t u, exists added keep,
  tc_merge t u = t ++ added
  /\ length keep = length u /\ added = map snd (List.filter (fun p => fst p) (combine keep u))
  /\ forall x, In x added -> exists before after, u = before ++ x :: after /\ ~ In (ts_fqn x) (fqns before).
Proof.
  intros t u. destruct (fresh_order u (fqns t)) as (keep & L & E). exists (fresh (fqns t) u), keep.
  split; [apply tc_merge_fresh|]. split; [exact L|]. split; [exact E|]. intros x I. exact (fresh_first _ _ _ I).
Qed.
Print Assumptions C33_first_appearance.

(** ... and merging again, or merging a part of it, changes nothing. *)
Theorem C33_idempotent : forall t u v, (forall f, In f (fqns v) -> In f (fqns t) \/ In f (fqns u)) ->
  tc_merge (tc_merge t u) v = tc_merge t u.
Proof.
  intros t u v H. rewrite (tc_merge_fresh v). rewrite fresh_none; [apply app_nil_r|]. intros x I.
  rewrite tc_merge_fresh. unfold fqns at 1. rewrite map_app. apply in_or_app.
  change (map ts_fqn (fresh (fqns t) u)) with (fqns (fresh (fqns t) u)). rewrite fresh_in.
  destruct (in_dec str_eq_dec (ts_fqn x) (fqns t)) as [J|J]; [left; exact J|]. right. split; [|exact J].
  destruct (H (ts_fqn x)); [unfold fqns; apply in_map; exact I|contradiction|assumption].
Qed.
Print Assumptions C33_idempotent.

Example C33_hypotheses_met :
  fqns (tc_merge [TS (B "\A") (B "A") 0; TS (B "int") (B "int") 0] [TS (B "\B") (B "B") 0; TS (B "\A") (B "A") 1; TS (B "\B") (B "B") 2])
    = [B "\A"; B "int"; B "\B"]
  /\ NoDup (fqns [TS (B "\A") (B "A") 0; TS (B "int") (B "int") 0]).
Proof.
  split; [reflexivity|]. repeat constructor; cbn; intuition; discriminate.
Qed.

(** ** C34 scoped names *)
(** A fully qualified name, and every unqualified name, is split into a scope
    and a short name without backslash so that joining them gives the name
    back. *)
Theorem C34_scope_and_name : forall name, fully_qualified name \/ (name <> [] /\ ~ In BSL name) ->
  let '(scope, short) := GetScopeAndNameFromString name in
  ~ In BSL short /\ join_scope scope short = name.
Proof.
  intros name D. assert (Q := scope_and_name name). destruct (GetScopeAndNameFromString name) as [scope short].
  destruct Q as [(N & NE & -> & ->)|[(-> & -> & ->)|(ns & Nw & E & ->)]].
  - split; [exact N|]. reflexivity.
  - exfalso. destruct D as [(ps & _ & _ & H)|[H _]]; [discriminate|congruence].
  - split; [exact Nw|]. destruct D as [(ps & NE & F & E1)|[_ D]].
    + rewrite E in E1. rewrite trim_prefix_bsl. destruct ns as [|b ns].
      * cbn in *. exact (eq_sym E).
      * injection E1 as -> E1. rewrite byte_eqb_refl. rewrite E. unfold join_scope.
        destruct ns as [|c ns].
        { exfalso. destruct ps as [|p ps]; [congruence|]. destruct (F p (or_introl eq_refl)) as [NEp NB].
          destruct p as [|x p]; [congruence|]. destruct ps; cbn in E1; injection E1 as <- _; apply NB; left; reflexivity. }
        cbn [str_eqb]. rewrite byte_eqb_refl. reflexivity.
    + exfalso. apply D. rewrite E. apply in_or_app. right. left. reflexivity.
Qed.
Print Assumptions C34_scope_and_name.

(** Outside the claim: a relative qualified name gains a leading backslash. *)
Theorem C34_every_string_refuted : exists name scope short,
  GetScopeAndNameFromString name = (scope, short) /\ join_scope scope short <> name.
Proof. exists (B "App\Shop"), (B "\App"), (B "Shop"). split; [reflexivity|]. vm_compute. discriminate. Qed.
Print Assumptions C34_every_string_refuted.

Example C34_hypotheses_met : fully_qualified (B "\App\Model\Shop") /\ GetScopeAndNameFromString (B "\App\Model\Shop") = (B "\App\Model", B "Shop")
  /\ join_scope (B "\App\Model") (B "Shop") = B "\App\Model\Shop".
Proof.
  split; [|split; reflexivity]. exists [B "App"; B "Model"; B "Shop"]. split; [discriminate|]. split; [|reflexivity].
  intros p [<-|[<-|[<-|[]]]]; (split; [discriminate|]); cbn; intuition; discriminate.
Qed.
