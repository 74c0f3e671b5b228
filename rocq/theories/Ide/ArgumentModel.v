(** The arguments of a call and the parameter the cursor is at:
    analysis/argumentList.go, internal/lsp/signature.go. *)
From Coq Require Import String.
From Coq Require Import List Bool ZArith.
From Coq.Strings Require Import Byte.
From Verif Require Import Base.Bytes Base.Protocol Base.SortSearch Symbols.Symbols Symbols.KeysModel Types.TypesModel Text.TextModel Text.PositionModel Analyse.SyntaxModel Analyse.AnalyseModel.
Import ListNotations.
Open Scope list_scope.
Open Scope nat_scope.

Section Arguments.
Variable d : document.
(** argumentList.go:43-71, the loop over the children as far as [ranges] goes;
    [start]: where the current range starts, [end_]: the end of the list *)
Fixpoint ranges_from (start end_ : position) (kids : list node) : list range :=
  match kids with
  | [] => [Rng start end_]
  | Tk t :: kids =>
      match t_type t with
      | TkComma => Rng start (pos_at d (t_offset t)) :: ranges_from (pos_at d (t_end t)) end_ kids
      | _ => ranges_from start end_ kids
      end
  | _ :: kids => ranges_from start end_ kids
  end.
(** argumentList.go:101-103 GetRanges of newArgumentList(node) *)
Definition GetRanges (ty : phrase_type) (kids : list node) : list range :=
  let r := NodeRange d (Ph ty kids) in ranges_from (r_start r) (r_end r) kids.
(** argumentList.go:72-74, :97-99 GetArgumentRanges *)
Definition GetArgumentRanges (kids : list node) : list range := map (NodeRange d) (List.filter is_argument kids).

(** signature.go:47-50 *)
Definition ActiveParameter (ranges : list range) (pos : position) : nat :=
  sort_search (length ranges) (fun i => Z.leb (IsInRange pos (nth i ranges zero_range)) 0).

(** signature.go:75-86, for the parameters of the first function found *)
Fixpoint parameter_hints (params : list parameter) (ranges : list range) : list (gostr * range) :=
  match params, ranges with
  | p :: params, r :: ranges => (pa_name p, r) :: parameter_hints params ranges
  | _, _ => []
  end.
End Arguments.

(** signature.go:94-109: the label of one parameter *)
Definition parameter_label (p : parameter) : gostr :=
  (if tc_IsEmpty (pa_type p) then [] else tc_ToString (pa_type p) ++ B " ")
  ++ pa_name p ++ (if str_eqb (pa_value p) [] then [] else B " = " ++ pa_value p).
(** signature.go:90-121; documentation is left out *)
Record signature := Signature { sg_label : gostr; sg_parameters : list gostr }.
Definition hasParamToSignatureInformation (name_label : gostr) (params : list parameter) : signature :=
  Signature (name_label ++ B "(" ++ join (map parameter_label params) (B ", ") ++ B ")") (map parameter_label params).
(** symbol.go:21-32 *)
Definition visibility_ToString (v : Z) : gostr :=
  if Z.eqb v Public then B "public" else if Z.eqb v Private then B "private" else if Z.eqb v Protected then B "protected" else [].
(** method.go:200-207 *)
Definition method_GetNameLabel (m : method) : gostr :=
  visibility_ToString (m_visibility m) ++ (if m_static m then B " static" else []) ++ B " " ++ m_name m.
(** function.go:158-160 *)
Definition function_GetNameLabel (f : function) : gostr := ts_original (f_name f).
