(** Claims about splitting identifiers for completion. *)
From Coq Require Import String.
From Coq Require Import List Bool NArith Arith Lia.
From Coq.Strings Require Import Byte.
From Verif Require Import Base.Bytes Base.Utf8 Words.TokeniserModel Words.TokeniserSpec Words.TokeniserProofs.
Import ListNotations.
Open Scope list_scope.

(** ASCII versions of unicode.IsUpper and unicode.IsDigit, for the examples *)
Definition up (n : N) : bool := (N.leb 65 n && N.leb n 90)%bool.
Definition dg (n : N) : bool := (N.leb 48 n && N.leb n 57)%bool.

(** ** C20 *)
(** Whenever splitting returns, on any bytes: the name first, no duplicates,
    only substrings of the name. *)
Theorem C20_tokens_sound : forall is_upper is_digit name toks,
  Tokenise is_upper is_digit name = Some toks ->
  (exists rest, toks = name :: rest) /\ NoDup toks /\ forall t, In t toks -> substring t name.
Proof. exact Tokenise_sound. Qed.
Print Assumptions C20_tokens_sound.

(** On well encoded names it does return, and no token is empty unless the
    name has only underscores. *)
Theorem C20_tokens_total_partial : forall is_upper is_digit name,
  well_encoded name ->
  exists toks, Tokenise is_upper is_digit name = Some toks
    /\ ((exists b, In b name /\ b <> US) -> forall t, In t toks -> t <> []).
Proof. exact Tokenise_ok. Qed.
Print Assumptions C20_tokens_total_partial.

(** "never fails, for any byte string" is false: an upper case letter, an
    invalid byte and a lower case letter make the slice expression
    name[start:prev] of casing.go:64 panic. *)
Theorem C20_never_fails_refuted : exists name, Tokenise up dg name = None.
Proof. exists (B "A" ++ [xe2] ++ B "b"). reflexivity. Qed.
Print Assumptions C20_never_fails_refuted.

(** "only non-empty substrings" is false: "_" yields the empty token. *)
Theorem C20_non_empty_refuted : exists name toks, Tokenise up dg name = Some toks /\ In [] toks /\ well_encoded name.
Proof.
  exists (B "_"), [B "_"; []]. split; [reflexivity|]. split; [simpl; auto|].
  intros i r [H|[]]. injection H as <- <-. discriminate.
Qed.
Print Assumptions C20_non_empty_refuted.

Example C20_hypotheses_met :
  well_encoded (B "SimpleXMLParser_v2")
  /\ Tokenise up dg (B "SimpleXMLParser_v2") = Some [B "SimpleXMLParser_v2"; B "XML"; B "Parser"; B "v"; B "2"].
Proof.
  split; [|reflexivity]. intros i r H. vm_compute in H.
  repeat (destruct H as [H|H]; [injection H as <- <-; discriminate|]). destruct H.
Qed.

(** ** C57 every camel-case or underscore word is a token *)
(** For ASCII names every word is a token or, if it starts the name, the
    beginning of one; except a single character in front of an underscore. *)
Theorem C57_words_are_tokens_partial : forall is_upper is_digit name a b,
  ascii name -> word is_upper is_digit name a b ->
  a = 0 \/ long_enough is_upper is_digit name a b ->
  exists toks t, Tokenise is_upper is_digit name = Some toks /\ In t toks
    /\ has_prefix (slice name a b) t = true
    /\ (0 < a -> t = slice name a b).
Proof. exact words_are_tokens. Qed.
Print Assumptions C57_words_are_tokens_partial.

(** The full statement is false for single characters in front of an
    underscore: "c" is no token, nor a prefix of a token, of "ab_c_de". *)
Theorem C57_all_words_refuted : exists name a b toks,
  ascii name /\ word up dg name a b /\ 0 < a /\ Tokenise up dg name = Some toks
  /\ forall t, In t toks -> has_prefix (slice name a b) t = false.
Proof.
  exists (B "ab_c_de"), 3, 4, [B "ab_c_de"; B "ab"; B "de"].
  split; [intros b H; vm_compute in H; repeat (destruct H as [H|H]; [subst; reflexivity|]); destruct H|].
  split.
  { split; [split; [vm_compute; lia|]; split; [discriminate|right; left; reflexivity]|].
    split; [vm_compute; lia|]. split; [intros k K; lia|right; right; reflexivity]. }
  split; [lia|]. split; [reflexivity|].
  intros t H. simpl in H. repeat (destruct H as [H|H]; [subst; reflexivity|]). destruct H.
Qed.
Print Assumptions C57_all_words_refuted.

Example C57_hypotheses_met :
  word up dg (B "myXMLClass") 5 10 /\ long_enough up dg (B "myXMLClass") 5 10 /\ slice (B "myXMLClass") 5 10 = B "Class".
Proof.
  split; [|split; [left; lia|reflexivity]].
  split; [split; [vm_compute; lia|]; split; [discriminate|right; right; right; repeat split]|].
  split; [vm_compute; lia|]. split; [|left; reflexivity].
  intros k K. assert (k = 6 \/ k = 7 \/ k = 8 \/ k = 9) as D by lia.
  split.
  - intros (_ & _ & W). destruct D as [->|[->|[->| ->]]];
      (destruct W as [W|[W|[(W & W2)|(W & W2 & W3)]]]; vm_compute in *; try discriminate; try (apply W2; split; reflexivity); try (apply W; reflexivity)).
  - destruct D as [->|[->|[->| ->]]]; discriminate.
Qed.
