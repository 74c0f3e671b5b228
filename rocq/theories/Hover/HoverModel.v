(** What the editor shows of the name under the cursor: internal/lsp/hover.go. *)
From Coq Require Import String.
From Coq Require Import List Bool ZArith.
From Coq.Strings Require Import Byte.
From Verif Require Import Base.Bytes Base.Protocol Symbols.Symbols Symbols.KeysModel Text.TextModel Text.PositionModel Types.TypesModel
  Types.ImportModel Rpc.StreamModel Analyse.SyntaxModel Analyse.AnalyseModel Analyse.RefModel
  Storage.KvModel Store.FilterModel Store.StoreModel Query.QueryModel Query.QueryStoreModel Whole.CursorModel Whole.DefinitionModel
  Members.MemberModel Ide.ArgumentModel.
Import ListNotations.
Open Scope list_scope.
Open Scope nat_scope.

Section Format.
(** symbolConverter.go:18-22: a description as Markdown, or as it is if it cannot be converted *)
Variable markdown : gostr -> gostr.
(** symbolConverter.go:31-35 *)
Definition wrapPHPCode (code : gostr) : gostr := B "```php" ++ [x0a] ++ B "<?php" ++ [x0a] ++ code ++ [x0a] ++ B "```" ++ [x0a].
(** symbolConverter.go:43-45 *)
Definition writeHorLine : gostr := [x0a] ++ B "____" ++ [x0a].
(** symbolConverter.go:16-29 with writeLine *)
Definition concatDescriptionIfAvailable (description : gostr) : gostr :=
  match description with [] => [] | _ => writeHorLine ++ markdown description end.
(** symbolConverter.go:47-53 and 258-282 *)
Definition concatScopeIfAvailable (sc : scope_symbol) : gostr :=
  writeHorLine ++ [x0a] ++ B "`" ++
  match sc with
  | ScClass c => B "class" ++ B " " ++ ts_fqn (Symbols.c_name c)
  | ScInterface i => B "interface" ++ B " " ++ ts_fqn (i_name i)
  | ScTrait t => B "trait" ++ B " " ++ ts_fqn (t_name t)
  end ++ B "`".
(** symbolConverter.go:55-74 *)
Definition concatParam (p : parameter) : gostr :=
  (if tc_IsEmpty (pa_type p) then [] else tc_ToString (pa_type p) ++ B " ") ++ pa_name p ++ (if pa_hasvalue p then B " = " ++ pa_value p else []).
Definition concatParams (params : list parameter) : gostr := join (map concatParam params) (B ", ").
(** "if !types.IsEmpty() { ": " + types.ToString() }" *)
Definition returned (types : type_composite) : gostr := if tc_IsEmpty types then [] else B ": " ++ tc_ToString types.
(** symbolConverter.go:78-97 formatClasses, one round *)
Definition format_class (c : class) : gostr :=
  wrapPHPCode (B "class " ++ ts_original (Symbols.c_name c)
    ++ (if ts_IsEmpty (Symbols.c_extends c) then [] else B " extends " ++ ts_ToString (Symbols.c_extends c))
    ++ match Symbols.c_interfaces c with [] => [] | is => B " implements " ++ join (map ts_original is) (B ", ") end)
  ++ concatDescriptionIfAvailable (Symbols.c_description c) ++ writeHorLine.
(** symbolConverter.go:114-132 formatInterfaces *)
Definition format_interface (i : interface) : gostr :=
  wrapPHPCode (B "interface " ++ ts_original (i_name i)
    ++ match map ts_original (List.filter (fun e => negb (ts_IsEmpty e)) (i_extends i)) with [] => [] | es => B " extends " ++ join es (B ", ") end)
  ++ concatDescriptionIfAvailable (i_description i) ++ writeHorLine.
(** symbolConverter.go:151-164 formatConsts; the description of a constant
    repeats its full name and its value (const.go:77-79) *)
Definition format_const (k : const) : gostr :=
  wrapPHPCode (B "const " ++ ts_original (k_name k) ++ match k_value k with [] => [] | v => B " = " ++ v end)
  ++ concatDescriptionIfAvailable (ts_fqn (k_name k) ++ B " = " ++ k_value k ++ B "; " ++ k_description k) ++ writeHorLine.
(** symbolConverter.go:168-183 formatDefines, define.go:57-63 *)
Definition format_define (k : define) : gostr :=
  wrapPHPCode (B "define('" ++ ts_fqn (d_name k) ++ B "'" ++ match d_value k with [] => [] | v => B ", " ++ v end ++ B ")")
  ++ concatDescriptionIfAvailable (ts_fqn (d_name k) ++ B " = " ++ d_value k ++ B "; " ++ d_description k) ++ writeHorLine.
(** symbolConverter.go:187-202 functionsToHover *)
Definition format_function (f : function) : gostr :=
  wrapPHPCode (B "function " ++ ts_original (f_name f) ++ B "(" ++ concatParams (f_params f) ++ B ")" ++ returned (f_return f))
  ++ concatDescriptionIfAvailable (f_description f) ++ writeHorLine.
(** symbolConverter.go:213-222 traitsToHover; a trait has no description (trait.go:68-71) *)
Definition format_trait (t : trait) : gostr :=
  wrapPHPCode (B "trait " ++ ts_original (t_name t)) ++ concatDescriptionIfAvailable [] ++ writeHorLine.
(** symbolConverter.go:233-250 classConstsToHover *)
Definition format_class_const (c : class_const) (sc : scope_symbol) : gostr :=
  wrapPHPCode (B "const " ++ cc_name c ++ match cc_value c with [] => [] | v => B " = " ++ v end)
  ++ concatScopeIfAvailable sc ++ concatDescriptionIfAvailable (cc_description c) ++ writeHorLine.
(** symbolConverter.go:284-292 concatVisibility is that of symbol.go; 294-319 methodsToHover *)
Definition format_method (m : method) (sc : scope_symbol) : gostr :=
  wrapPHPCode (visibility_ToString (m_visibility m) ++ (if m_static m then B " static" else []) ++ B " function " ++ m_name m
    ++ B "(" ++ concatParams (m_params m) ++ B ")" ++ returned (m_return m))
  ++ concatScopeIfAvailable sc ++ concatDescriptionIfAvailable (m_description m) ++ writeHorLine.
(** symbolConverter.go:330-349 propertiesToHover *)
Definition format_property (p : property) (sc : scope_symbol) : gostr :=
  wrapPHPCode (visibility_ToString (pr_visibility p) ++ (if pr_static p then B " static" else []) ++ B " " ++ pr_name p ++ returned (pr_types p))
  ++ concatScopeIfAvailable sc ++ concatDescriptionIfAvailable (pr_description p) ++ writeHorLine.

(** protocol.Hover *)
Record shown_hover := Hover { hv_range : range; hv_text : gostr }.

Section Handler.
Context {TX : Text} {X : XorFilter}.
(** the sections for what was found, one after the other; [None]: a panic *)
Definition formatted {A} (format : A -> gostr) (found : option (list A)) : option gostr := option_map (fun l => concat (map format l)) found.
(** hover.go:30-34 *)
Definition all_classes (st : store) (types : type_composite) : option (list class) := concat_opt (map (fun t => Query_GetClasses st (ts_fqn t)) types).
(** hover.go:35-41 *)
Fixpoint all_constructors (fuel : nat) (st : store) (q : QueryModel.query method) (cs : list class) : option (list (with_scope method)) :=
  match cs with
  | [] => Some []
  | c :: cs =>
      match GetClassMethods (method_db st) fuel q c (B "__construct") None with
      | None => None
      | Some (q, r) => option_map (fun l => match ReduceFirst r with Some x => x :: l | None => l end) (all_constructors fuel st q cs)
      end
  end.
Definition format_with {M} (format : M -> scope_symbol -> gostr) (x : with_scope M) : gostr := format (ws_member x) (ws_scope x).
(** hover.go:28-205, for a document with the analysis [s].  [Some None]: there is
    nothing under the cursor.  [None]: a panic, out of fuel, or what is not
    modelled here: a variable (its types are those of C83) and the members
    (below). *)
Definition hover (fuel : nat) (st : store) (s : state) (pos : position) : option (option shown_hover) :=
  match HasTypesAtPos (st_out s) pos with
  | None => Some None
  | Some a =>
      let types := a_types a in
      let named (look_up : ImportTable -> type_string -> option gostr) :=
        match ImportTableAtPos (st_imports s) pos, NewTypeString (ts_original (a_name a)) with
        | Some table, Some name => look_up table name
        | _, _ => None
        end in
      option_map (fun text => Some (Hover (a_range a) text))
        (match a_kind a with
         | AClassTypeDesignator =>
             match all_classes st types with
             | None => None
             | Some cs => match all_constructors fuel st NewQuery cs with
                          | None => None
                          | Some [] => Some (concat (map format_class cs))
                          | Some l => Some (concat (map (format_with format_method) l))
                          end
             end
         | AClassAccess | ATypeDeclaration =>
             concat_opt [concat_opt (map (fun t => formatted format_class (Query_GetClasses st (ts_fqn t))) types);
                    concat_opt (map (fun t => formatted format_interface (GetInterfaces st (ts_fqn t))) types)]
         | AInterfaceAccess => concat_opt (map (fun t => formatted format_interface (GetInterfaces st (ts_fqn t))) types)
         | ATraitAccess => concat_opt (map (fun t => formatted format_trait (GetTraits st (ts_fqn t))) types)
         | AConstantAccess => named (fun table name =>
             let fqn := GetConstReferenceFQN (fun f => any (GetConsts st f)) (fun f => any (GetDefines st f)) table name in
             concat_opt [formatted format_const (GetConsts st fqn); formatted format_define (GetDefines st fqn)])
         | AFunctionCall => named (fun table name =>
             formatted format_function (GetFunctions st (GetFunctionReferenceFQN (fun f => any (GetFunctions st f)) table name)))
         | AScopedConstantAccess | AScopedMethodAccess | AScopedPropertyAccess | APropertyAccess | AMethodAccess | AVariable => None
         | _ => Some []
         end)
  end.

(** hover.go:107-184: the members are those go to definition finds *)
Definition member_text {M} (format : M -> scope_symbol -> gostr) (found : option (QueryModel.query M * list (with_scope M))) : option gostr :=
  option_map (fun r => concat (map (format_with format) (snd r))) found.
Variables (st : store) (fuel : nat).
Definition MethodAccess_hover q cur ac name types := member_text format_method (MethodAccess_members st fuel q cur ac name types).
Definition ScopedMethodAccess_hover q cur ac name types := member_text format_method (ScopedMethodAccess_members st fuel q cur ac name types).
Definition PropertyAccess_hover q cur ac name types := member_text format_property (PropertyAccess_members st fuel q cur ac name types).
Definition ScopedPropertyAccess_hover q cur ac name types := member_text format_property (ScopedPropertyAccess_members st fuel q cur ac name types).
Definition ScopedConstantAccess_hover q cur ac name types := member_text format_class_const (ScopedConstantAccess_members st fuel q cur ac name types).
End Handler.
End Format.
