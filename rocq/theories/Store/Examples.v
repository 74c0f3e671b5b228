(** A small workspace used to show that the hypotheses of the claims about the
    index can be met, and for counterexamples. *)
From Coq Require Import String.
From Coq Require Import List Bool NArith ZArith Lia.
From Coq.Strings Require Import Byte.
From Verif Require Import Base.Bytes Base.BytesProofs Base.Protocol Base.Decimal Base.Utf8
  Codec.CodecSpec Codec.SymbolCodecSpec Symbols.Symbols Symbols.KeysModel Words.TokeniserSpec
  Storage.KvModel Store.FilterModel Store.StoreModel Store.StoreSpec.
Import ListNotations.
Open Scope list_scope.

(** the ASCII part of Go's tables *)
Definition lower_byte (b : byte) : byte :=
  if (N.leb 65 (Byte.to_N b) && N.leb (Byte.to_N b) 90)%bool
  then match Byte.of_N (Byte.to_N b + 32) with Some c => c | None => b end else b.
#[export] Instance ascii_text : Text := {
  to_lower := map lower_byte;
  is_upper := fun n => (N.leb 65 n && N.leb n 90)%bool;
  is_digit := fun n => (N.leb 48 n && N.leb n 57)%bool }.

Lemma ascii_text_ok : text_ok ascii_text.
Proof.
  intros c s C N I. cbn [to_lower ascii_text] in I. apply in_map_iff in I as (b & E & I). apply N.
  assert (H : b = c); [|now rewrite <- H]. destruct C as [->| ->]; destruct b; vm_compute in E; (reflexivity || discriminate).
Qed.

(** a filter that always answers "maybe" *)
#[export] Instance maybe_filter : XorFilter := {
  sum64 := fun s => Z.of_nat (List.length s);
  populate := fun _ => Some (Xor8 7 3 (B "abc"));
  xor_contains := fun _ _ => true }.
Lemma maybe_filter_ok : xor_ok maybe_filter.
Proof.
  intros hs x H. cbn [populate maybe_filter] in H. injection H as <-. split; [|intros; reflexivity].
  repeat split; simpl; unfold uint64, uint32, go_len; simpl; lia.
Qed.
Lemma maybe_filter_populates : populates maybe_filter.
Proof. intros l N D. discriminate. Qed.

Definition at_line (u : gostr) (a b : Z) : location := Loc u (Rng (Pos a 4) (Pos b 20)).
Definition ty (s : string) : type_string := TS (B s) (B s) 0.
Definition a_class (u : gostr) (name : string) : symbol :=
  SClass (Class (B "doc") (at_line u 1 1) (at_line u 1 9) NoClassModifier (ty name) (ty "") [] [] None).
Definition a_method (u : gostr) (scope name : string) : symbol :=
  SMethod (Method (at_line u 3 5) (at_line u 3 3) (B name) [] [ty "\int"] [] (ty scope) Public false NoClassModifier None).
Definition a_constant (u : gostr) (scope name value : string) : symbol :=
  SClassConst (ClassConst (at_line u 6 6) (at_line u 6 6) [] (B name) (B value) (ty scope) Public None).
Definition a_property (u : gostr) (scope name : string) (r : range) : symbol :=
  SProperty (Property (Loc u r) (Loc u r) [] None (B name) (ty scope) Public false [ty "\int"]).
Definition a_function (u : gostr) (name : string) : symbol :=
  SFunction (Function (at_line u 20 22) (at_line u 20 20) (ty name) [] [ty "\string"] [] None).

Definition root_uri : gostr := B "file:///w".
Definition uri_a : gostr := B "file:///w/a.php".
Definition uri_b : gostr := B "file:///w/b.php".
Definition line_range (a b : Z) : range := Rng (Pos a 4) (Pos b 20).
Definition doc_a : doc := Doc uri_a (B "hash-a")
  [a_class uri_a "\App\Shop"; a_method uri_a "\App\Shop" "sell"; a_constant uri_a "\App\Shop" "OPEN" "1";
   a_property uri_a "\App\Shop" "$stock" (line_range 7 7); a_function uri_a "\App\helper"]
  [B "\App"] [EntryInfo (B "\App\Customer") (line_range 4 4)].
Definition doc_a2 : doc := Doc uri_a (B "hash-a2")
  [a_class uri_a "\App\Shop"; a_method uri_a "\App\Shop" "buy"]
  [B "\App"] [EntryInfo (B "\App\Shop::sell") (line_range 4 4)].
Definition doc_b : doc := Doc uri_b (B "hash-b")
  [a_class uri_b "\App\Customer"; a_method uri_b "\App\Customer" "sell"; a_constant uri_b "\App\Customer" "OPEN" "2";
   a_property uri_b "\App\Customer" "$name" (line_range 7 7)]
  [B "\App"] [EntryInfo (B "\App\Shop") (line_range 2 2)].
Definition example : list event := [EvSync doc_a; EvSync doc_b; EvRestart; EvSync doc_a2].

Ltac not_in := let H := fresh in intros H; vm_compute in H; repeat (destruct H as [H|H]; [discriminate|]); exact H.
Ltac ok :=
  lazymatch goal with
  | |- ~ In _ _ => not_in
  | |- go_len _ => vm_compute; reflexivity
  | |- int64 _ => split; vm_compute; [discriminate|reflexivity]
  | |- (_ <= _)%Z => vm_compute; discriminate
  | |- pos_ok _ => split; ok
  | |- loc_ok _ => unfold loc_ok; repeat match goal with |- _ /\ _ => split end; ok
  | |- ts_ok _ => unfold ts_ok; repeat match goal with |- _ /\ _ => split end; ok
  | |- tss_ok _ => split; ok
  | |- params_ok _ => split; ok
  | |- depr_ok _ => exact I
  | |- info_ok _ => unfold info_ok; repeat match goal with |- _ /\ _ => split end; ok
  | |- symbol_ok _ => cbv beta iota delta [symbol_ok a_class a_method a_constant a_property a_function]; unfold class_ok, function_ok, method_ok, class_const_ok, property_ok, interface_ok, trait_ok, const_ok, define_ok, global_variable_ok; repeat match goal with |- _ /\ _ => split end; ok
  | |- nonneg_range _ => unfold nonneg_range; repeat match goal with |- _ /\ _ => split end; ok
  | |- Forall _ _ => repeat (constructor; [ok|]); constructor
  | |- forall n, In n (symbol_names _) -> _ =>
      let n := fresh in let H := fresh in intros n H; cbn [symbol_names In a_class a_method a_constant a_property a_function] in H;
      repeat (destruct H as [H|H]; [rewrite <- H; not_in|]); destruct H
  | |- symbol_of_file _ _ => split; [ok|split; [reflexivity|split; [ok|split; [first [exact I|cbv beta iota delta [a_property]; ok]|ok]]]]
  | |- doc_ok _ => split; [ok|split; [ok|split; [cbn [d_symbols]; ok|split; [ok|ok]]]]
  | |- event_ok _ => cbn [event_ok]; first [exact I | ok]
  | |- ?g => fail 1 "unknown goal" g
  end.

(** prove a conjunction by evaluating its equations in order *)
Ltac compute_all := repeat (split; [vm_compute; reflexivity|]); vm_compute; reflexivity.

Lemma doc_a_ok : doc_ok doc_a. Proof. unfold doc_a. ok. Qed.
Lemma doc_a2_ok : doc_ok doc_a2. Proof. unfold doc_a2. ok. Qed.
Lemma doc_b_ok : doc_ok doc_b. Proof. unfold doc_b. ok. Qed.
Lemma example_ok : Forall event_ok example.
Proof.
  constructor; [exact doc_a_ok|]. constructor; [exact doc_b_ok|]. constructor; [exact I|].
  constructor; [exact doc_a2_ok|constructor].
Qed.
