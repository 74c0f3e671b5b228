(** The arguments of a call. *)
From Coq Require Import String.
From Coq Require Import List Bool Sorting.Sorted ZArith.
From Coq.Strings Require Import Byte.
From Verif Require Import Base.Bytes Base.Protocol Symbols.Symbols Symbols.KeysModel Types.TypesModel Text.TextModel Analyse.SyntaxModel Ide.ArgumentModel.
Import ListNotations.
Open Scope list_scope.
Open Scope nat_scope.

(** the commas between the arguments (not those inside of an argument) *)
Definition commas (kids : list node) : list token :=
  flat_map (fun c => match c with Tk t => match t_type t with TkComma => [t] | _ => [] end | _ => [] end) kids.
(** the commas are characters of the text, one after the other, and within the list *)
Definition commas_in_order (ty : phrase_type) (kids : list node) : Prop :=
  StronglySorted (fun a b => t_end a <= t_offset b) (commas kids)
  /\ forall c, In c (commas kids) -> t_length c = 1
       /\ (forall f, FirstToken (Ph ty kids) = Some f -> t_offset f <= t_offset c)
       /\ (forall l, LastToken (Ph ty kids) = Some l -> t_end c <= t_end l).
(** the argument the cursor at [offset] is in: that many commas are behind it *)
Definition commas_passed (kids : list node) (offset : nat) : nat := length (List.filter (fun c => t_end c <=? offset) (commas kids)).

(** what is written between the commas *)
Fixpoint places (kids : list node) : list (list node) :=
  match kids with
  | [] => [[]]
  | c :: kids =>
      match c with
      | Tk (Tok TkComma _ _) => [] :: places kids
      | _ => match places kids with p :: ps => (c :: p) :: ps | [] => [[c]] end
      end
  end.
(** white space, parentheses, comments and errors *)
Definition no_argument (c : node) : bool :=
  match c with
  | Tk t => match t_type t with
            | TkWhitespace | TkOpenParenthesis | TkCloseParenthesis | TkComment | TkDocumentCommentStart => true
            | _ => false
            end
  | Ph _ _ => false
  | Err _ => true
  end.
(** the argument [a] alone is written at this place *)
Definition filled_by (place : list node) (a : node) : Prop := exists x y, place = x ++ a :: y /\ no_argument a = false /\ forallb no_argument (x ++ y) = true.

(** the text [l] for a parameter: its type if it has one, its name, and its
    default value if it has one *)
Definition written_parameter (p : parameter) (l : gostr) : Prop :=
  exists ty value, l = ty ++ pa_name p ++ value
    /\ ((tc_IsEmpty (pa_type p) = true /\ ty = []) \/ (tc_IsEmpty (pa_type p) = false /\ ty = tc_ToString (pa_type p) ++ B " "))
    /\ ((pa_value p = [] /\ value = []) \/ (pa_value p <> [] /\ value = B " = " ++ pa_value p)).
(** what is shown of a function called [title] *)
Definition describes (title : gostr) (params : list parameter) (s : signature) : Prop :=
  Forall2 written_parameter params (sg_parameters s)
  /\ sg_label s = title ++ B "(" ++ join (sg_parameters s) (B ", ") ++ B ")".
Definition method_title (m : method) (title : gostr) : Prop :=
  exists v s, title = v ++ s ++ B " " ++ m_name m
    /\ ((m_visibility m = Public /\ v = B "public") \/ (m_visibility m = Protected /\ v = B "protected") \/ (m_visibility m = Private /\ v = B "private")
        \/ (~ In (m_visibility m) [Public; Protected; Private] /\ v = []))
    /\ ((m_static m = true /\ s = B " static") \/ (m_static m = false /\ s = [])).
Definition describes_method (m : method) (s : signature) : Prop := exists title, method_title m title /\ describes title (m_params m) s.
Definition describes_function (f : function) (s : signature) : Prop := describes (ts_original (f_name f)) (f_params f) s.
