(** What the outline of a file should show. *)
From Coq Require Import String.
From Coq Require Import List ZArith.
From Verif Require Import Base.Bytes Base.Protocol Symbols.Symbols Ide.TreeModel Ide.TreeSpec Analyse.SyntaxModel Analyse.AnalyseModel Analyse.AnalyseSpec.
Import ListNotations.
Open Scope list_scope.

(** the kinds of the protocol *)
Definition protocol_kind (k : akind) : option nat :=
  match k with
  | AClass | ATrait => Some 5 | AMethod => Some 6 | AProperty => Some 7 | AInterface => Some 11 | AFunction => Some 12
  | AConst | AClassConst | ADefine => Some 14
  | _ => None
  end.
(** global constants are shown with their namespace, all others as they are written *)
Definition shown_name (k : akind) (name : type_string) : gostr :=
  match k with AConst | ADefine => ts_fqn name | _ => ts_original name end.
(** [x] is an entry for a declaration of the kind [k] with this name and place *)
Definition entry (k : akind) (name : type_string) (r : range) (x : doc_data) : Prop :=
  protocol_kind k = Some (ds_kind x) /\ ds_name x = shown_name k name /\ ds_range x = r.
(** [outlined d n path]: the entries of the path, the outermost first, are
    declarations written in [n], each inside the one before; members that a
    comment declares are where the comment is *)
Inductive outlined (d : document) : node -> list doc_data -> Prop :=
| outlined_end : forall n, outlined d n []
| outlined_node : forall n m a x rest, below m n -> says d a m -> entry (a_kind a) (a_name a) (a_range a) x -> outlined d m rest -> outlined d n (x :: rest)
| outlined_comment : forall n a x, declared_by_comment d a -> entry (a_kind a) (a_name a) (a_range a) x -> outlined d n [x].
(** all entries of an outline, in order, each with those above it *)
Definition all_entries (outline : list doc_symbol) : list (list doc_data * doc_data) := flat_map (entries []) outline.
