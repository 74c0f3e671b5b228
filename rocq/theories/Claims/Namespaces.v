(** Claims about searching namespaces. *)
From Coq Require Import String.
From Coq Require Import List Bool NArith ZArith Lia.
From Coq.Strings Require Import Byte.
From Verif Require Import Base.Bytes Base.BytesProofs Base.Protocol Base.Decimal
  Codec.CodecModel Codec.CodecSpec Symbols.Symbols Symbols.KeysModel Words.TokeniserModel Words.TokeniserSpec Words.TokeniserProofs
  Storage.KvModel Storage.KvSpec Storage.KvProofs Store.FilterModel Store.StoreModel Store.StoreSpec Store.StoreProofs
  Store.SearchModel Store.SearchSpec Store.SearchProofs Store.NamespaceProofs Store.Examples.
Import ListNotations.
Open Scope list_scope.

(** ** C35 namespace levels *)
(** Searching [sp1\...\spn\w] (with or without a leading backslash) proposes
    exactly the declared namespaces [sp1\...\spn\part\...] of which the part at
    that level matches [w].  A keyword made of underscores only is left out. *)
Theorem C35_levels : forall (T : Text) (X : XorFilter) root h st (lead : bool) sp w,
  text_ok T -> (forall x, to_lower x = [] -> x = []) ->
  Forall event_ok h -> run root h = Some st -> clean_namespaces h ->
  (forall p, In p sp -> ns_part p) -> well_encoded w -> ~ In NUL w -> ~ In BSL w -> (exists b, In b w /\ b <> US) ->
  exists l, SearchNamespaces st ((if lead then [BSL] else []) ++ join (sp ++ [w]) [BSL]) = Some (l, true)
    /\ forall f, In f l <-> exists d ns ps part after, In d (synced_docs h) /\ In ns (d_namespaces d)
         /\ ns_parts ns ps /\ ps = sp ++ part :: after /\ matches w part /\ f = BSL :: join ps [BSL].
Proof. intros. eapply namespaces_exact; eassumption. Qed.
Print Assumptions C35_levels.

(** Every level of every declared namespace is found by its own name under
    its parent. *)
Theorem C35_every_level : forall (T : Text) (X : XorFilter) root h st (lead : bool) d ns before part after,
  text_ok T -> (forall x, to_lower x = [] -> x = []) ->
  Forall event_ok h -> run root h = Some st -> clean_namespaces h ->
  In d (synced_docs h) -> In ns (d_namespaces d) -> ns_parts ns (before ++ part :: after) ->
  well_encoded part -> (exists b, In b part /\ b <> US) ->
  exists l, SearchNamespaces st ((if lead then [BSL] else []) ++ join (before ++ [part]) [BSL]) = Some (l, true)
    /\ In (BSL :: join (before ++ part :: after) [BSL]) l.
Proof.
  intros T X root h st lead d ns before part after TOK LOW OK R CL Id In' NP WE NU.
  assert (Hp : ns_part part) by (apply (proj1 NP); apply in_or_app; right; left; reflexivity).
  destruct (C35_levels T X root h st lead before part TOK LOW OK R CL) as (l & E & S); try assumption; try apply Hp.
  { intros p I. apply (proj1 NP). apply in_or_app. auto. }
  exists l. split; [exact E|]. apply S. exists d, ns, (before ++ part :: after), part, after.
  repeat (split; [assumption || reflexivity|]). split; [|reflexivity].
  destruct (Tokenise_ok is_upper is_digit part WE) as (toks & TE & _). destruct (Tokenise_sound _ _ _ _ TE) as ((rest & ->) & _).
  exists part, part. split; [|split; [|apply has_prefix_refl]]; exists (part :: rest); (split; [exact TE|left; reflexivity]).
Qed.
Print Assumptions C35_every_level.

Definition ns_doc : doc := Doc uri_a (B "hash-a") [a_class uri_a "\App\Model\User"] [B "\App\Model"; B "\App\View"; B "\Lib\App"] [].
Example ns_doc_ok : event_ok (EvSync ns_doc).
Proof. ok. Qed.
Example C35_hypotheses_met : exists st,
  Forall event_ok [EvSync ns_doc] /\ run root_uri [EvSync ns_doc] = Some st /\ clean_namespaces [EvSync ns_doc]
  /\ (forall x, to_lower x = [] -> x = [])
  /\ ns_part (B "App") /\ ~ In NUL (B "Mo") /\ ~ In BSL (B "Mo") /\ (exists b, In b (B "Mo") /\ b <> US)
  /\ SearchNamespaces st (B "\App\Mo") = Some ([B "\App\Model"], true)
  /\ SearchNamespaces st (B "App") = Some ([B "\App\Model"; B "\App\View"], true)
  /\ SearchNamespaces st (B "Lib\App") = Some ([B "\Lib\App"], true)
  /\ SearchNamespaces st (B "Mo") = Some ([], true).
Proof.
  eexists. split; [constructor; [exact ns_doc_ok|constructor]|]. split; [vm_compute; reflexivity|]. split.
  { intros d ns [<-|[]] I. assert (PT : forall p, In p [B "App"; B "Model"; B "View"; B "Lib"] -> ns_part p).
    { intros p Ip. cbn in Ip. repeat destruct Ip as [<-|Ip]; try (split; [discriminate|split; not_in]). destruct Ip. }
    cbn in I. destruct I as [<-|[<-|[<-|[]]]].
    - exists [B "App"; B "Model"]. split; [split; [intros p Ip; apply PT; cbn in *; tauto|right; reflexivity]|].
      intros [|[|i]] L; cbn in L; [| |lia]; vm_compute; reflexivity.
    - exists [B "App"; B "View"]. split; [split; [intros p Ip; apply PT; cbn in *; tauto|right; reflexivity]|].
      intros [|[|i]] L; cbn in L; [| |lia]; vm_compute; reflexivity.
    - exists [B "Lib"; B "App"]. split; [split; [intros p Ip; apply PT; cbn in *; tauto|right; reflexivity]|].
      intros [|[|i]] L; cbn in L; [| |lia]; vm_compute; reflexivity. }
  split; [intros x E; cbn in E; destruct x; [reflexivity|discriminate]|].
  split; [split; [discriminate|split; not_in]|]. split; [not_in|]. split; [not_in|].
  split; [eexists; split; [left; reflexivity|discriminate]|]. split; [vm_compute; reflexivity|]. split; [vm_compute; reflexivity|]. split; vm_compute; reflexivity.
Qed.

(** A lone underscore as the last part lists every level of every namespace:
    the same namespace is proposed several times. *)
Theorem C35_underscore_refuted : exists st l,
  Forall event_ok [EvSync ns_doc] /\ run root_uri [EvSync ns_doc] = Some st
  /\ SearchNamespaces st (B "_") = Some (l, true) /\ ~ NoDup l.
Proof.
  do 2 eexists. split; [constructor; [exact ns_doc_ok|constructor]|]. split; [vm_compute; reflexivity|]. split; [vm_compute; reflexivity|].
  intros N. apply (NoDup_count_occ (list_eq_dec Byte.byte_eq_dec)) with (x := B "\App\Model") in N. vm_compute in N. lia.
Qed.
Print Assumptions C35_underscore_refuted.
