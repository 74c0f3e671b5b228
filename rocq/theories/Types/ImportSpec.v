(** PHP's rules for resolving names, written without looking at phpintel.

    A name is a list of parts, written with backslashes between them and one in
    front of a fully qualified name. *)
From Coq Require Import String.
From Coq Require Import List Bool ZArith.
From Coq.Strings Require Import Byte.
From Verif Require Import Base.Bytes Base.Protocol Symbols.Symbols Types.TypesModel Types.ImportModel.
Import ListNotations.
Open Scope list_scope.

Record pname := Name { absolute : bool; first : gostr; rest : list gostr }.

Definition relative_text (n : pname) : gostr := join (first n :: rest n) [BSL].
Definition text (n : pname) : gostr := if absolute n then BSL :: relative_text n else relative_text n.

(** an identifier: not empty, no backslash, no square bracket *)
Definition identifier (p : gostr) : Prop := p <> [] /\ ~ In BSL p /\ ~ In x5d p.
Definition valid (n : pname) : Prop := identifier (first n) /\ forall p, In p (rest n) -> identifier p.

(** a use declaration: [use \[function|const\] u_name \[as u_alias\]] *)
Record use_decl := Use { u_kind : use_kind; u_name : gostr; u_alias : option gostr; u_range : range }.

(** the name a declaration binds: its alias, or what follows the last backslash *)
Definition bound_name (u : use_decl) : gostr :=
  match u_alias u with Some a => a | None => last (split_byte (u_name u) BSL) [] end.

Definition same_kind (a b : use_kind) : bool :=
  match a, b with UseClass, UseClass | UseFunction, UseFunction | UseConst, UseConst => true | _, _ => false end.

(** class and function names are compared without case, constants with *)
Definition same_name (k : use_kind) (a b : gostr) : bool :=
  match k with UseConst => str_eqb a b | _ => str_eqb (lower_ascii a) (lower_ascii b) end.

Definition php_bound (uses : list use_decl) (k : use_kind) (a : gostr) : option use_decl :=
  find (fun u => same_kind (u_kind u) k && same_name k (bound_name u) a) (rev uses).

(** the name placed in namespace [ns] *)
Definition in_namespace (ns : gostr) (n : pname) : gostr :=
  match ns with [] => BSL :: relative_text n | _ => BSL :: ns ++ BSL :: relative_text n end.

(** https://www.php.net/manual/en/language.namespaces.rules.php: [declared] says
    which functions (or constants) exist *)
Definition php_resolve (k : use_kind) (declared : gostr -> bool) (uses : list use_decl) (ns : gostr) (n : pname) : gostr :=
  if absolute n then text n
  else match rest n with
       | _ :: _ =>
           match php_bound uses UseClass (first n) with
           | Some u => BSL :: u_name u ++ BSL :: join (rest n) [BSL]
           | None => in_namespace ns n
           end
       | [] =>
           match php_bound uses k (first n) with
           | Some u => BSL :: u_name u
           | None =>
               match k with
               | UseClass => in_namespace ns n
               | _ => if declared (in_namespace ns n) then in_namespace ns n else BSL :: first n
               end
           end
       end.

(** the imports of a namespace block, entered one after the other *)
Definition add_use (i : ImportTable) (u : use_decl) : ImportTable :=
  addUseToImportTable i (u_kind u) (match u_alias u with Some a => a | None => [] end) (u_name u) (u_range u).
Definition imports (pos : position) (ns : gostr) (uses : list use_decl) : ImportTable :=
  fold_left add_use uses (setNamespace (newImportTable pos) ns).

Definition decl_ok (u : use_decl) : Prop := u_alias u <> Some [].

(** names are written with the same case as where they were imported *)
Definition spelled_alike (uses : list use_decl) (a : gostr) : Prop :=
  forall u, In u uses -> lower_ascii (bound_name u) = lower_ascii a -> bound_name u = a.

(** names which phpintel takes as built-in types *)
Definition builtin (s : gostr) : Prop :=
  In s (map B ["mixed"; "null"; "bool"; "true"; "false"; "int"; "float"; "real"; "double"; "string"; "binary"; "array";
               "object"; "callable"; "void"; "static"; "$this"; "__DIR__"; "__FILE__"; "boolean"; "integer"]%string).

(** ** The text of a use statement *)
Definition use_statement (k : use_kind) (name : gostr) : gostr :=
  B "use " ++ (match k with UseClass => [] | UseFunction => B "function " | UseConst => B "const " end) ++ name ++ B ";".

(** ** A namespace block as a sequence of imports and references *)
Inductive code :=
| CUse (u : use_decl)
| CClass (n : pname)      (* new N, N::x, extends N, a type N, ... *)
| CCall (n : pname)       (* N(...) *)
| CConstant (n : pname).  (* N *)

(** the kind of import and the alias through which a reference is resolved *)
Definition reference (c : code) : option (use_kind * gostr) :=
  let via k n := if absolute n then None
                 else Some (match rest n with [] => k | _ => UseClass end, first n) in
  match c with
  | CUse _ => None
  | CClass n => via UseClass n
  | CCall n => via UseFunction n
  | CConstant n => via UseConst n
  end.

Definition refers (u : use_decl) (c : code) : Prop :=
  exists a, reference c = Some (u_kind u, a) /\ same_name (u_kind u) (bound_name u) a = true.

(** [u] is declared in the block, not replaced by a later import of the same
    name, and nothing after it is resolved through it *)
Definition unused (block : list code) (u : use_decl) : Prop :=
  exists before after, block = before ++ CUse u :: after
    /\ (forall c, In c after -> ~ refers u c)
    /\ (forall v, In (CUse v) after -> u_kind v = u_kind u -> bound_name v <> bound_name u).

(** What the analyser does with each of them: use.go:130-139,
    classTypeDesignator.go:51-52 (and the other callers of
    GetClassReferenceFQN), functionCall.go:56, constantAccess.go:31.  [None]: a
    panic. *)
Definition analyse_code (i : option ImportTable) (c : code) : option ImportTable :=
  match i with
  | None => None
  | Some i =>
      match c with
      | CUse u => Some (add_use i u)
      | CClass n => option_map (fun t => snd (GetClassReferenceFQN i t)) (NewTypeString (text n))
      | CCall n => option_map (useFunctionOrClass i) (NewTypeString (text n))
      | CConstant n => option_map (useConstOrClass i) (NewTypeString (text n))
      end
  end.
Definition analyse_block (pos : position) (ns : gostr) (block : list code) : option ImportTable :=
  fold_left analyse_code block (Some (setNamespace (newImportTable pos) ns)).

Definition code_ok (c : code) : Prop :=
  match c with
  | CUse u => decl_ok u
  | CClass n | CCall n | CConstant n => valid n /\ ~ builtin (text n)
  end.

(** ** Conditions *)
(** the global and the namespaced function (or constant) of the same relative
    name are not confused: exactly one of them exists, or, for a name with
    several parts, the global one does not *)
Definition unambiguous (declared : gostr -> bool) (ns : gostr) (n : pname) : Prop :=
  ns = [] \/ match rest n with
             | [] => declared (in_namespace [] n) = negb (declared (in_namespace ns n))
             | _ => declared (in_namespace [] n) = false
             end.

(** a fully qualified name is not spelled like an imported one *)
Definition not_shadowed (k : use_kind) (uses : list use_decl) (n : pname) : Prop :=
  absolute n = true -> php_bound uses (match rest n with [] => k | _ => UseClass end) (first n) = None.

(** no two imports differ only in case *)
Definition consistent_case (uses : list use_decl) : Prop :=
  forall u v, In u uses -> In v uses -> lower_ascii (bound_name u) = lower_ascii (bound_name v) -> bound_name u = bound_name v.

(** a declared class, function or constant: the parts of its namespace and its
    short name *)
Definition declared_name (space : list gostr) (short : gostr) : gostr := BSL :: join (space ++ [short]) [BSL].
Definition declared_type (space : list gostr) (short : gostr) : type_string := TS (declared_name space short) short 0.

Definition class_of (k : use_kind) : symbol_class :=
  match k with UseClass => SyClass | UseFunction => SyFunction | UseConst => SyConst end.
