(** Which variables of a function are recorded. *)
From Coq Require Import String.
From Coq Require Import List Bool ZArith.
From Coq.Strings Require Import Byte.
From Verif Require Import Base.Bytes Base.Protocol Symbols.KeysModel Text.TextModel Text.PositionModel Text.PositionSpec Ide.VariableModel
  Analyse.SyntaxModel Analyse.AnalyseSpec Analyse.DeclareSpec Analyse.UseSpec Rename.TraceSpec.
Import ListNotations.
Open Scope list_scope.
Open Scope nat_scope.

Section Record.
Context {TX : Text} (d : document).
(** [v] is a variable that the node [n] is about: a variable in an expression, the
    left side of an assignment, the value of a "foreach", and what is "global" *)
Inductive mentions : node -> node -> Prop :=
| mentions_variable : forall ks, ~ calls_define d ks -> mentions (Ph PhSimpleVariable ks) (Ph PhSimpleVariable ks)
| mentions_assigned : forall ty vs rest,
    ty = PhSimpleAssignmentExpression \/ ty = PhByRefAssignmentExpression \/ ty = PhCompoundAssignmentExpression ->
    ~ calls_define d (Ph PhSimpleVariable vs :: rest) -> mentions (Ph ty (Ph PhSimpleVariable vs :: rest)) (Ph PhSimpleVariable vs)
| mentions_value : forall kids ks vs, ~ calls_define d kids -> In (Ph PhForeachValue ks) kids -> In (Ph PhSimpleVariable vs) ks ->
    mentions (Ph PhForeachStatement kids) (Ph PhSimpleVariable vs)
| mentions_global : forall kids ks vs, In (Ph PhVariableNameList ks) kids -> In (Ph PhSimpleVariable vs) ks ->
    mentions (Ph PhGlobalDeclaration kids) (Ph PhSimpleVariable vs).
(** [n] is read when [m] is, and not only in a function inside of [m] *)
Inductive reads_own (m : node) : node -> Prop :=
| own_it : reads_own m m
| own_more : forall n c, reads_own m n -> ~ function_node n -> reads d n c -> reads_own m c.
(** the code of the function [f], or of the file ([None]), without that of the functions in it *)
Definition own_code (f : option node) (n : node) : Prop :=
  match f with
  | Some f => exists c, reads d f c /\ reads_own c n
  | None => exists c, In c (node_kids (d_root d)) /\ reads_own c n
  end.
(** where a variable begins to be known: behind itself, or behind the assignment *)
Definition known_behind (n v : node) : position :=
  match n with
  | Ph (PhSimpleAssignmentExpression | PhByRefAssignmentExpression | PhCompoundAssignmentExpression) _ => r_end (NodeRange d n)
  | _ => r_end (NodeRange d v)
  end.
(** where the header of a function ends (the range of a header without a first
    token is empty) *)
Definition header_end (ty : phrase_type) (header : node) : position :=
  match ty, LastToken header with
  | (PhFunctionDeclaration | PhMethodDeclaration), Some t => pos_at d (t_end t)
  | _, _ => r_end (NodeRange d header)
  end.
(** [m] is the variable of a parameter of [f], whose header ends at [from] *)
Definition parameter_of (f : option node) (m : node) (from : position) : Prop :=
  match f with
  | Some (Ph ty kids) => exists header hs ps before t after,
      is_function_like ty header = true /\ In (Ph header hs) kids /\ In (Ph PhParameterDeclarationList ps) hs /\
      In (Ph PhParameterDeclaration (before ++ Tk t :: after)) ps /\ t_type t = TkVariableName /\
      (forall u, In (Tk u) after -> t_type u <> TkVariableName) /\ m = Tk t /\ from = header_end ty (Ph header hs)
  | _ => False
  end.
(** [m] is a variable of the function [f], or of the file, which is known behind [from]: a
    parameter, or a variable in its own code *)
Definition variable_of (f : option node) (m : node) (from : position) : Prop :=
  parameter_of f m from \/ exists n, own_code f n /\ mentions n m /\ from = known_behind n m.
(** the file, or a function, method or closure around the position *)
Definition encloses (pos : position) (f : option node) : Prop :=
  match f with
  | Some f => function_node f /\ below f (d_root d) /\ inside pos (NodeRange d f)
  | None => True
  end.
Definition node_of (f : option node) : node := match f with Some f => f | None => d_root d end.
End Record.
