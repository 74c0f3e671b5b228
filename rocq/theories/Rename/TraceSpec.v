(** How the recorded variables of a file follow its tree. *)
From Coq Require Import String.
From Coq Require Import List Bool ZArith.
From Coq.Strings Require Import Byte.
From Verif Require Import Base.Bytes Base.Protocol Symbols.KeysModel Text.TextModel Text.PositionModel Ide.VariableModel Ide.VariableSpec
  Analyse.SyntaxModel Analyse.AnalyseSpec.
Import ListNotations.
Open Scope list_scope.
Open Scope nat_scope.

(** a variable in an expression, a parameter, and a variable behind a closure's "use" *)
Definition variable_node (n : node) : Prop :=
  match n with
  | Ph (PhSimpleVariable | PhAnonymousFunctionUseVariable) _ => True
  | Tk t => t_type t = TkVariableName
  | _ => False
  end.
(** the nodes with variables of their own *)
Definition function_node (n : node) : Prop :=
  match n with
  | Ph (PhFunctionDeclaration | PhMethodDeclaration | PhAnonymousFunctionCreationExpression) _ => True
  | _ => False
  end.
Section Trace.
Context {TX : Text} (d : document).
(** the variable is written below [n], at its range (a parameter of which only a
    part is written yet may have the empty name) *)
Definition written (n : node) (v : variable) : Prop :=
  v_name v = [] \/
  exists m, below m n /\ variable_node m /\ v_range v = NodeRange d m /\ GetNodeText d m = Some (v_name v).
(** The operations for the code below [n]. [Q] is what is known of the operations
    for the code of a function. *)
Variable Q : node -> list var_op -> Prop.
Inductive trace : node -> list var_op -> Prop :=
| trace_nil : forall n, trace n []
| trace_record : forall n v start decl ops, written n v -> trace n ops -> trace n (RecordVar v start decl :: ops)
| trace_capture : forall n v ops, written n v -> trace n ops -> trace n (Capture v :: ops)
| trace_function : forall n f inner ops, below f n -> function_node f -> Q f inner -> trace f inner -> trace n ops ->
    trace n (OpenScope (NodeRange d f) :: inner ++ CloseScope :: ops).
End Trace.
