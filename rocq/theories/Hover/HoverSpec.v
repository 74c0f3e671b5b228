(** What the editor should show of a declaration. *)
From Coq Require Import String.
From Coq Require Import List Bool ZArith.
From Coq.Strings Require Import Byte.
From Verif Require Import Base.Bytes Base.Protocol Symbols.Symbols Symbols.KeysModel Types.TypesModel
  Storage.KvModel Store.FilterModel Store.StoreModel Store.StoreSpec Query.QueryModel Analyse.AnalyseModel.
Import ListNotations.
Open Scope list_scope.

(** Markdown: PHP code, a ruler, and code within a line *)
Definition code_block (code : gostr) : gostr := B "```php
<?php
" ++ code ++ B "
```
".
Definition ruler : gostr := B "
____
".
Definition inline_code (s : gostr) : gostr := B "`" ++ s ++ B "`".

(** the text [s] stands there, with [before] in front of it, if the condition holds; else nothing *)
Definition clause (holds : Prop) (before s written : gostr) : Prop := (holds /\ written = before ++ s) \/ (~ holds /\ written = []).
Definition typed (types : type_composite) : Prop := exists t, In t types /\ ts_IsEmpty t = false.
(** a parameter: its type, its name, its default value *)
Definition parameter_code (p : parameter) (code : gostr) : Prop :=
  exists ty value, code = ty ++ pa_name p ++ value
    /\ clause (typed (pa_type p)) [] (tc_ToString (pa_type p) ++ B " ") ty /\ clause (pa_hasvalue p = true) (B " = ") (pa_value p) value.
(** parameters in parentheses and the type behind them *)
Definition callable_code (params : list parameter) (returns : type_composite) (code : gostr) : Prop :=
  exists ps ret, code = B "(" ++ join ps (B ", ") ++ B ")" ++ ret /\ Forall2 parameter_code params ps /\ clause (typed returns) (B ": ") (tc_ToString returns) ret.
Definition visibility_code (v : Z) (code : gostr) : Prop :=
  (v = Public /\ code = B "public") \/ (v = Protected /\ code = B "protected") \/ (v = Private /\ code = B "private") \/ (~ In v [Public; Protected; Private] /\ code = []).
Definition has_name (t : type_string) : bool := negb (ts_IsEmpty t).

(** the head of a declaration outside of classes as code, and what its comment says *)
Definition head (x : symbol) (code description : gostr) : Prop :=
  match x with
  | SClass c => exists extends implements, code = B "class " ++ ts_original (Symbols.c_name c) ++ extends ++ implements
      /\ clause (has_name (Symbols.c_extends c) = true) (B " extends ") (ts_ToString (Symbols.c_extends c)) extends
      /\ clause (Symbols.c_interfaces c <> []) (B " implements ") (join (map ts_original (Symbols.c_interfaces c)) (B ", ")) implements
      /\ description = Symbols.c_description c
  | SInterface i => exists extends, code = B "interface " ++ ts_original (i_name i) ++ extends
      /\ clause (exists e, In e (i_extends i) /\ has_name e = true) (B " extends ") (join (map ts_original (List.filter has_name (i_extends i))) (B ", ")) extends
      /\ description = i_description i
  | STrait t => code = B "trait " ++ ts_original (t_name t) /\ description = []
  | SFunction f => exists call, code = B "function " ++ ts_original (f_name f) ++ call /\ callable_code (f_params f) (f_return f) call /\ description = f_description f
  | SConst k => exists value, code = B "const " ++ ts_original (k_name k) ++ value /\ clause (k_value k <> []) (B " = ") (k_value k) value
      /\ description = ts_fqn (k_name k) ++ B " = " ++ k_value k ++ B "; " ++ k_description k
  | SDefine k => exists value, code = B "define('" ++ ts_fqn (d_name k) ++ B "'" ++ value ++ B ")" /\ clause (d_value k <> []) (B ", ") (d_value k) value
      /\ description = ts_fqn (d_name k) ++ B " = " ++ d_value k ++ B "; " ++ d_description k
  | _ => False
  end.
(** the head of a member *)
Definition method_head (m : method) (code description : gostr) : Prop :=
  exists v static call, code = v ++ static ++ B " function " ++ m_name m ++ call /\ visibility_code (m_visibility m) v /\ clause (m_static m = true) (B " ") (B "static") static
    /\ callable_code (m_params m) (m_return m) call /\ description = m_description m.
Definition property_head (p : property) (code description : gostr) : Prop :=
  exists v static type, code = v ++ static ++ B " " ++ pr_name p ++ type /\ visibility_code (pr_visibility p) v /\ clause (pr_static p = true) (B " ") (B "static") static
    /\ clause (typed (pr_types p)) (B ": ") (tc_ToString (pr_types p)) type /\ description = pr_description p.
Definition constant_head (c : class_const) (code description : gostr) : Prop :=
  exists value, code = B "const " ++ cc_name c ++ value /\ clause (cc_value c <> []) (B " = ") (cc_value c) value /\ description = cc_description c.
(** where a member is declared *)
Definition place_code (sc : scope_symbol) : gostr :=
  match sc with
  | ScClass c => B "class " ++ ts_fqn (Symbols.c_name c)
  | ScInterface i => B "interface " ++ ts_fqn (i_name i)
  | ScTrait t => B "trait " ++ ts_fqn (t_name t)
  end.

Section Shown.
(** a description as Markdown *)
Variable markdown : gostr -> gostr.
(** [text] shows a declaration with the head [h] *)
Definition shows (h : gostr -> gostr -> Prop) (text : gostr) : Prop :=
  exists code description more, h code description /\ text = code_block code ++ more ++ ruler /\ clause (description <> []) ruler (markdown description) more.
Definition shows_member (h : gostr -> gostr -> Prop) (sc : scope_symbol) (text : gostr) : Prop :=
  exists code description more, h code description /\ text = code_block code ++ ruler ++ B "
" ++ inline_code (place_code sc) ++ more ++ ruler /\ clause (description <> []) ruler (markdown description) more.
Context {T : Text}.
(** the text shows, one after the other, the current declarations that one of
    [qs] asks for: each once, and nothing else.  (Two declarations of which the
    index keeps the same are shown as one.) *)
Definition shows_all (h : list event) (qs : list StoreSpec.query) (text : gostr) : Prop :=
  exists xs ts, text = concat ts /\ Forall2 (fun x t => shows (head x) t) xs ts /\ NoDup xs
    /\ (forall x, In x xs -> current h x /\ exists q, In q qs /\ wanted q x)
    /\ (forall q x, In q qs -> current h x -> wanted q x -> exists t, In t ts /\ shows (head x) t).
End Shown.
(** the declarations a name can stand for: a class name in front of [::], as a
    type or behind [instanceof] can be that of an interface *)
Definition stands_for (k : akind) (fqn : gostr) : list StoreSpec.query :=
  match k with
  | AClassAccess | ATypeDeclaration => [QClass fqn; QInterface fqn]
  | AInterfaceAccess => [QInterface fqn]
  | ATraitAccess => [QTrait fqn]
  | _ => []
  end.
