(** What is written in a function is found in its scope. *)
From Coq Require Import String.
From Coq Require Import List Bool ZArith Lia.
From Coq.Strings Require Import Byte.
From Verif Require Import Base.Bytes Base.Protocol Symbols.KeysModel Text.TextModel Text.PositionModel Text.PositionSpec Ide.VariableModel Ide.VariableSpec
  Types.TypesModel Rpc.StreamModel Analyse.SyntaxModel Analyse.AnalyseModel Analyse.AnalyseSpec Analyse.UseSpec
  Rename.TraceSpec Rename.TraceProofs Rename.RecordSpec Rename.RecordProofs Rename.RenameSpec Rename.RenameProofs.
Import ListNotations.
Open Scope list_scope.
Open Scope nat_scope.

(** ** Operations between the scopes of others *)
Lemma scoped_level : forall a pre stack next, balanced (length pre) a -> exists next', forall rest,
  scoped next (pre ++ stack) (a ++ rest) = scoped next (pre ++ stack) a ++ scoped next' stack rest /\
  scopes next (pre ++ stack) (a ++ rest) = scopes next (pre ++ stack) a ++ scopes next' stack rest.
Proof.
  induction a as [|op a IH]; intros pre stack next Ba; cbn [balanced] in Ba.
  - destruct pre; [|discriminate Ba]. exists next. intros rest. split; reflexivity.
  - destruct op as [r| |v st dc|v]; cbn [app scoped scopes].
    + destruct (IH (next :: pre) stack (S next) Ba) as (n' & H). exists n'. intros rest. destruct (H rest) as (H1 & H2). cbn [app] in H1, H2. rewrite H1, H2.
      split; [reflexivity|]. destruct (pre ++ stack); reflexivity.
    + destruct pre as [|p pre]; [destruct Ba|]. exact (IH pre stack next Ba).
    + destruct (IH pre stack next Ba) as (n' & H). exists n'. intros rest. destruct (H rest) as (H1 & H2). rewrite H1, H2. split; [destruct (pre ++ stack); reflexivity|reflexivity].
    + destruct (IH pre stack next Ba) as (n' & H). exists n'. intros rest. destruct (H rest) as (H1 & H2). rewrite H1, H2. split; [destruct (pre ++ stack) as [|x [|y l]]; reflexivity|reflexivity].
Qed.
Section Complete.
Context {TX : Text} {TR : TrimSpace} (d : document).
Lemma held_scoped : forall v name st l next i stack, held (recorded d v name st) l ->
  exists dc, In (i, Occ (MkVar name (NodeRange d v)) st dc) (scoped next (i :: stack) l).
Proof.
  intros v name st l next i stack (a & x & b & -> & La & _ & _ & dc & ->). destruct (scoped_level a [] (i :: stack) next La) as (n' & H). exists dc.
  destruct (H ([RecordVar (MkVar name (NodeRange d v)) st dc] ++ b)) as (H1 & _). cbn [app] in H1. cbn [app]. rewrite H1. apply in_app_iff. right. left. reflexivity.
Qed.
Lemma held_scopes : forall g l next i stack, held (opened d g) l -> exists n', In (Scope i n' (NodeRange d g)) (scopes next (i :: stack) l).
Proof.
  intros g l next i stack (a & x & b & -> & La & _ & _ & j & -> & _). destruct (scoped_level a [] (i :: stack) next La) as (n' & H). exists n'.
  destruct (H ((OpenScope (NodeRange d g) :: j ++ [CloseScope]) ++ b)) as (_ & H2). cbn [app] in H2. cbn [app]. rewrite H2. apply in_app_iff. right. left. reflexivity.
Qed.

(** what is known of the operations for the code of a function *)
Definition complete (f : option node) (inner : list var_op) : Prop :=
  (forall g, own_code d f g -> function_node g -> held (opened d g) inner) /\
  (forall v name from, variable_of d f v from -> GetNodeText d v = Some name -> held (recorded d v name from) inner).
Lemma analyse_complete : forall s, analyse d = Done tt s -> trace d (fun f => complete (Some f)) (d_root d) (st_vars s) /\ complete None (st_vars s).
Proof.
  intros s E. split.
  - apply analyse_trace_with; [|exact E]. intros fuel ty kids s1 u s2 inner Fn R Ba O. split.
    + intros g Ow Fg. apply (function_held d _ fuel (Ph ty kids) g s1 u s2); auto. exact (good_function d g Fg).
    + intros v name from [Pa|(n & Ow & M & ->)] N; [exact (parameter_held d fuel (Ph ty kids) v from name s1 u s2 inner Pa N R Ba O)|].
      apply (function_held d _ fuel (Ph ty kids) n s1 u s2); auto. exact (good_mention d v name n M N).
  - split.
    + intros g Ow Fg. apply (file_held d _ s g E Ow). exact (good_function d g Fg).
    + intros v name from [Pa|(n & Ow & M & ->)] N; [destruct Pa|]. apply (file_held d _ s n E Ow). exact (good_mention d v name n M N).
Qed.
(** the innermost scope belongs to the innermost function *)
Lemma innermost_function : forall s pos i, analyse d = Done tt s -> innermost (scopes 1 [0%nat] (st_vars s)) pos i ->
  exists f, encloses d pos f /\ (forall g, own_code d f g -> function_node g -> ~ inside pos (NodeRange d g)) /\
    (forall o, In (i, o) (scoped 1 [0%nat] (st_vars s)) -> written d (node_of d f) (oc_var o)) /\
    forall v name from, variable_of d f v from -> GetNodeText d v = Some name ->
      exists dc, In (i, Occ (MkVar name (NodeRange d v)) from dc) (scoped 1 [0%nat] (st_vars s)).
Proof.
  intros s pos i A (Ar & No). destruct (analyse_complete s A) as (T & Gf & Cf).
  destruct (trace_scope_place d _ _ _ pos i T Ar) as (f & [(-> & ->)|((Fn & Bl & Ins) & inner & stack & (Gi & Ci) & Ba & I1 & I2)] & W).
  - exists None. split; [exact I|]. split; [|split; [exact W|]].
    + intros g Ow Fg. destruct (held_scopes g _ 1 0 [] (Gf g Ow Fg)) as (n' & In_). exact (No _ In_ eq_refl).
    + intros v name from V N. exact (held_scoped v name from _ 1 0 [] (Cf v name from V N)).
  - exists (Some f). split; [split; [exact Fn|split; [exact Bl|exact Ins]]|]. cbn [fst snd] in *. split; [|split; [exact W|]].
    + intros g Ow Fg. destruct (held_scopes g _ (S i) i stack (Gi g Ow Fg)) as (n' & In_). exact (No _ (I2 _ In_) eq_refl).
    + intros v name from V N. destruct (held_scoped v name from _ (S i) i stack (Ci v name from V N)) as (dc & In_). exists dc. exact (I1 _ In_).
Qed.
End Complete.
