(** analysis/symbolType.go: type names and unions of types.

    NewTypeComposite's slice is the list of its elements.  Go's [int] for the
    array level is Z. *)
From Coq Require Import String.
From Coq Require Import List Bool ZArith.
From Coq.Strings Require Import Byte.
From Verif Require Import Base.Bytes Symbols.Symbols Symbols.KeysModel.
Import ListNotations.
Open Scope list_scope.

(** symbolType.go:11-14 Aliases *)
Definition Aliases (s : gostr) : option gostr :=
  if str_eqb s (B "boolean") then Some (B "bool")
  else if str_eqb s (B "integer") then Some (B "int")
  else None.

(** symbolType.go:17-38 Natives *)
Definition Natives : list gostr :=
  map B ["mixed"; "null"; "bool"; "true"; "false"; "int"; "float"; "real"; "double"; "string";
         "binary"; "array"; "object"; "callable"; "void"; "static"; "$this"; "__DIR__"; "__FILE__"]%string.

(** symbolType.go:66-76 resolveRawWithArrayLevel, on the reversed text.  The
    index o[i-1] is out of range for a text of odd length made of "]" and "[]"
    pairs: [None].  [Some None]: the loop ran off the start without [break] and
    [original] keeps its value. *)
Fixpoint strip_arrays (ro : gostr) (level : Z) : option (option gostr * Z) :=
  match ro with
  | [] => Some (None, level)
  | c :: r =>
      if negb (byte_eqb c x5d) then Some (Some (rev ro), level)
      else match r with
           | [] => None
           | d :: r' => if negb (byte_eqb d x5b) then Some (Some (rev ro), level)
                        else strip_arrays r' (level + 1)
           end
  end.
Definition resolveRawWithArrayLevel (t : type_string) : option type_string :=
  match strip_arrays (rev (ts_original t)) (ts_array t) with
  | None => None
  | Some (o, l) => Some (TS (ts_fqn t) (match o with Some o => o | None => ts_original t end) l)
  end.

(** symbolType.go:47-59 *)
Definition NewTypeString (s : gostr) : option type_string :=
  match resolveRawWithArrayLevel (TS [] s 0) with
  | None => None
  | Some t =>
      let o := match Aliases (ts_original t) with Some a => a | None => ts_original t end in
      Some (TS o o (ts_array t))
  end.

(** symbolType.go:78-84 *)
Definition Dearray (t : type_string) : type_string * bool :=
  if Z.eqb (ts_array t) 0 then (t, false)
  else (TS (ts_fqn t) (ts_original t) (ts_array t - 1), true).

(** symbolType.go:86-88: ts_IsEmpty in KeysModel.v *)

(** symbolType.go:100-107 *)
Definition ts_ToString (t : type_string) : gostr :=
  ts_fqn t ++ join (repeat (B "[]") (Z.to_nat (ts_array t))) [].

(** symbolType.go:109-119: ts_GetNamespace in KeysModel.v *)

(** symbolType.go:121-123 *)
Definition SetFQN (t : type_string) (fqn : gostr) : type_string := TS fqn (ts_original t) (ts_array t).

(** symbolType.go:158-166 *)
Definition IsFQN (name : gostr) : bool :=
  match name with
  | [] => false
  | b :: _ => existsb (str_eqb name) Natives || byte_eqb b BSL
  end.

(** symbolType.go:125-133 *)
Definition SetNamespace (t : type_string) (namespace : gostr) : type_string :=
  if IsFQN (ts_fqn t) then t
  else SetFQN t (match namespace with
                 | [] => BSL :: ts_fqn t
                 | _ => BSL :: namespace ++ BSL :: ts_fqn t
                 end).

(** symbolType.go:135-140 FirstPart *)
Definition FirstPart (t : type_string) : gostr :=
  if contains_byte (ts_original t) BSL
  then hd [] (split_byte (ts_original t) BSL)
  else ts_original t.

(** symbolType.go:150-156 GetParts *)
Definition GetParts (t : type_string) : list gostr :=
  match split_byte (ts_fqn t) BSL with
  | [] :: ps => ps
  | ps => ps
  end.

(** symbolType.go:142-148 GetFirstAndRestParts *)
Definition GetFirstAndRestParts (t : type_string) : gostr * list gostr :=
  match GetParts t with
  | [] => ([], [])
  | p :: ps => (p, ps)
  end.

(** ** TypeComposite *)
(** symbolType.go:232-239 *)
Definition hasFQN (t : type_composite) (fqn : gostr) : bool := existsb (fun x => str_eqb (ts_fqn x) fqn) t.
(** symbolType.go:241-246 *)
Definition tc_add (t : type_composite) (x : type_string) : type_composite :=
  if hasFQN t (ts_fqn x) then t else t ++ [x].
(** symbolType.go:248-252 *)
Definition tc_merge (t types : type_composite) : type_composite := fold_left tc_add types t.
(** symbolType.go:254-259 *)
Definition tc_mergeWithArrayLevel (t types : type_composite) (arrayLevel : Z) : type_composite :=
  fold_left (fun t x => tc_add t (TS (ts_fqn x) (ts_original x) (ts_array x + arrayLevel))) types t.
(** symbolType.go:289-301: tc_IsEmpty is in KeysModel.v *)
Definition tc_ToString (t : type_composite) : gostr :=
  join (map ts_ToString (List.filter (fun x => negb (ts_IsEmpty x)) t)) (B "|").

(** symbolType.go:303-321 *)
Definition GetScopeAndNameFromString (name : gostr) : gostr * gostr :=
  match name with
  | [] => ([BSL], [])
  | _ =>
      match split_byte name BSL with
      | [p] => ([], p)
      | [[]; p] => ([BSL], p)
      | [] :: parts => (BSL :: join (removelast parts) [BSL], last parts [])
      | parts => (BSL :: join (removelast parts) [BSL], last parts [])
      end
  end.
