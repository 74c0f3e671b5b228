(** The members a receiver has. *)
From Coq Require Import String.
From Coq Require Import List Bool ZArith.
From Coq.Strings Require Import Byte.
From Verif Require Import Base.Bytes Base.Protocol Symbols.Symbols Symbols.KeysModel Store.StoreModel Query.QueryModel Query.QuerySpec Query.QueryStoreModel.
Import ListNotations.
Open Scope list_scope.

Section Spec.
Context {M : Type} {MM : Member M}.
Variable w : world M.

(** [m], declared in [sc], is a member called [name] of something that the
    type [n] names: a class, and if [interfaces] an interface, and if [traits]
    a trait *)
Inductive has_member (interfaces traits : bool) (n name : gostr) (m : M) (sc : scope_symbol) : Prop :=
| of_class : forall c, w_class w n c -> belongs w c name m sc -> has_member interfaces traits n name m sc
| of_interface : forall i, interfaces = true -> w_interface w n i -> interface_belongs w i name m sc -> has_member interfaces traits n name m sc
| of_trait : forall t, traits = true -> w_trait w n t -> w_member w (ts_fqn (t_name t)) name m -> sc = ScTrait t -> has_member interfaces traits n name m sc.

(** Where [$x->m] may be written: everywhere if [m] is public; after [$this]
    also if it is not private or declared in the class around; and everything
    may be written if [$x] has, among others, the type of the class around.
    [cur]: the name of that class. *)
Definition arrow_access (cur : gostr) (ac : access) (m : M) : Prop :=
  mb_visibility m = Public
  \/ (ac_scope_name ac = B "$this" /\ (mb_scope m = cur \/ mb_visibility m <> Private))
  \/ (exists t, In t (ac_scope_types ac) /\ ts_fqn t = cur).
(** Where [X::m] may be written *)
Definition static_access (cur : gostr) (ac : access) (m : M) : Prop :=
  if str_eqb (ac_scope_name ac) (B "parent") then mb_scope m <> cur /\ mb_visibility m <> Private
  else if existsb (str_eqb (ac_scope_name ac)) [B "self"; B "static"; B "$this"] then mb_scope m = cur \/ mb_visibility m <> Private
  else mb_static m = true /\ (mb_visibility m = Public \/ exists t, In t (ac_scope_types ac) /\ ts_fqn t = mb_scope m).
End Spec.

(** what a query has gone through: any searches for members of class-likes of
    the workspace, by any names and with any maps *)
Section Asked.
Context {M : Type}.
Variables (relate marks traits : bool) (db : database M).
Inductive asked : query M -> Prop :=
| asked_nothing : asked NewQuery
| asked_map : forall q, asked q -> asked (snd (alloc q))
| asked_merge : forall q m o, asked q -> asked (fst (Merge q m o))
| asked_class : forall q n c fuel name s q' r, asked q -> In c (db_classes db n) ->
    GetClassMembers relate marks traits db fuel q c name s = Some (q', r) -> asked q'
| asked_interface : forall q n i fuel name s q' r, asked q -> In i (db_interfaces db n) ->
    GetInterfaceMembers relate db fuel q i name s = Some (q', r) -> asked q'
| asked_trait : forall q n t name q' r, asked q -> In t (db_traits db n) -> GetTraitMembers db q t name = (q', r) -> asked q'.
End Asked.

(** the name of [m] is to be proposed for the [word] typed so far: the word is
    empty, or the fuzzy search gives the name a positive [score] *)
Definition fits {M} {MM : Member M} (score : gostr -> gostr -> Z) (word : gostr) (m : M) : Prop := word = [] \/ (0 < score word (mb_name m))%Z.

(** [l] are the members to offer where those in [may] can be accessible and
    those in [must] are: each is a member that can be accessible, and
    overridden by no accessible one of the same name; and of every name with an
    accessible member one is there *)
Definition offers_between {M} {MM : Member M} (has : M -> scope_symbol -> Prop) (over : scope_symbol -> scope_symbol -> Prop) (may must : M -> Prop) (l : list (with_scope M)) : Prop :=
  (forall y, In y l -> has (ws_member y) (ws_scope y) /\ may (ws_member y)
     /\ forall m sc, has m sc -> mb_name m = mb_name (ws_member y) -> over sc (ws_scope y) -> ~ must m)
  /\ (forall m sc, has m sc -> must m -> exists y, In y l /\ mb_name (ws_member y) = mb_name m).
(** the three kinds of receivers, where exactly the members in [may] are
    accessible; nothing is overridden within an interface and those it extends,
    or within a trait *)
Definition class_offers {M} {MM : Member M} (w : world M) (c : class) (name : gostr) (may : M -> Prop) := offers_between (belongs w c name) (overrides w c) may may.
Definition interface_offers {M} {MM : Member M} (w : world M) (i : interface) (name : gostr) (may : M -> Prop) := offers_between (interface_belongs w i name) (fun _ _ => False) may may.
Definition trait_offers {M} {MM : Member M} (w : world M) (t : trait) (name : gostr) (may : M -> Prop) :=
  offers_between (fun m sc => w_member w (ts_fqn (t_name t)) name m /\ sc = ScTrait t) (fun _ _ => False) may may.

(** a file of the workspace; the stubs of the built-in classes have other URIs *)
Definition openable (loc : location) : Prop := exists path, l_uri loc = B "file://" ++ path.
(** go to definition leads to [locs] from [found]: to the members that are in
    a file that can be opened, and, if [only], to nothing else *)
Definition leads {M} (place : M -> location) (found : list (with_scope M)) (only : Prop) (locs : list location) : Prop :=
  (forall y, In y found -> openable (place (ws_member y)) -> In (place (ws_member y)) locs)
  /\ (only -> forall loc, In loc locs -> openable loc /\ exists y, In y found /\ loc = place (ws_member y)).

(** the proposals for a method, a property (behind [->] and behind [::]) and a
    constant: what is shown, and what is inserted *)
Definition shows_method (m : method) (label insert : gostr) : Prop :=
  label = m_name m /\ ((m_params m = [] /\ insert = m_name m ++ B "()") \/ (m_params m <> [] /\ insert = m_name m ++ B "($0)")).
Definition shows_property (p : property) (label insert : gostr) : Prop := exists dollar, pr_name p = dollar :: label /\ insert = label.
Definition shows_static_property (p : property) (label insert : gostr) : Prop :=
  label = pr_name p /\ (label = insert /\ insert = [] \/ exists dollar, label = dollar :: insert).
Definition shows_constant (c : class_const) (label insert : gostr) : Prop := label = cc_name c /\ insert = [].
(** every member of [l] is among the items, an item being of a kind and having
    a label and a text to insert *)
Definition listed {M K} (k : K) (shows : M -> gostr -> gostr -> Prop) (l : list (with_scope M)) (items : list (K * gostr * gostr)) : Prop :=
  forall y, In y l -> exists label insert, In (k, label, insert) items /\ shows (ws_member y) label insert.
Definition in_list {M K} (k : K) (shows : M -> gostr -> gostr -> Prop) (l : list (with_scope M)) (i : K * gostr * gostr) : Prop :=
  exists y label insert, In y l /\ i = (k, label, insert) /\ shows (ws_member y) label insert.
