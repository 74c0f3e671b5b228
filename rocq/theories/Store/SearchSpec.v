(** What searching the index by keyword should find. *)
From Coq Require Import String.
From Coq Require Import List Bool NArith ZArith.
From Coq.Strings Require Import Byte.
From Verif Require Import Base.Bytes Base.Protocol Symbols.Symbols Symbols.KeysModel Words.TokeniserModel Words.TokeniserSpec
  Store.FilterModel Store.StoreModel Store.StoreSpec Store.SearchModel Types.TypesModel.
Import ListNotations.
Open Scope list_scope.

(** ** Searches a user can make *)
Inductive search :=
| FindClasses (keyword : gostr) | FindInterfaces (keyword : gostr) | FindTraits (keyword : gostr)
| FindFunctions (keyword : gostr) | FindConsts (keyword : gostr) | FindDefines (keyword : gostr)
| FindMethods (scope keyword : gostr) | FindClassConsts (scope keyword : gostr)
| FindProperties (scope keyword : gostr).

Definition do_search {T : Text} {X : XorFilter} (st : store) (q : search) (o : search_options) (count : Z)
  : option outcome :=
  match q with
  | FindClasses k => SearchClasses st k o count
  | FindInterfaces k => SearchInterfaces st k o count
  | FindTraits k => SearchTraits st k o count
  | FindFunctions k => SearchFunctions st k o count
  | FindConsts k => SearchConsts st k o count
  | FindDefines k => SearchDefines st k o count
  | FindMethods c k => SearchMethods st c k o count
  | FindClassConsts c k => SearchClassConsts st c k o count
  | FindProperties c k => SearchProperties st c k o count
  end.

Definition search_kind (q : search) : kind :=
  match q with
  | FindClasses _ => KClass | FindInterfaces _ => KInterface | FindTraits _ => KTrait
  | FindFunctions _ => KFunction | FindConsts _ => KConst | FindDefines _ => KDefine
  | FindMethods _ _ => KMethod | FindClassConsts _ _ => KClassConst | FindProperties _ _ => KProperty
  end.
Definition search_texts (q : search) : list gostr :=
  match q with
  | FindClasses k | FindInterfaces k | FindTraits k | FindFunctions k | FindConsts k | FindDefines k => [k]
  | FindMethods c k | FindClassConsts c k | FindProperties c k => [c; k]
  end.

(** The namespace part of a keyword ("" if it is unqualified) with a leading
    backslash, and the rest.  The empty keyword asks for the root namespace. *)
Definition qualifier (keyword scope word : gostr) : Prop :=
  (~ In BSL keyword /\ keyword <> [] /\ scope = [] /\ word = keyword)
  \/ (keyword = [] /\ scope = [BSL] /\ word = [])
  \/ (exists ns, ~ In BSL word /\ keyword = ns ++ BSL :: word /\ scope = BSL :: trim_prefix ns [BSL]).

(** ** Matching *)
(** [t] is the name or one of its words (see C20, C57) *)
Definition token {T : Text} (name t : gostr) : Prop := exists toks, tokenise name = Some toks /\ In t toks.
(** The name, or a word of it, starts with the keyword, or with a word of it,
    ignoring case *)
Definition matches {T : Text} (keyword name : gostr) : Prop :=
  exists w t, token keyword w /\ token name t /\ has_prefix (to_lower w) (to_lower t) = true.

(** the name completion knows a symbol by *)
Definition simple_name {T : Text} (s : symbol) : gostr :=
  match s with
  | SClass s => ts_original (c_name s) | SInterface s => ts_original (i_name s)
  | STrait s => ts_original (t_name s) | SFunction s => ts_original (f_name s)
  | SConst s => ts_original (k_name s) | SDefine s => ts_original (d_name s)
  | SMethod s => m_name s | SClassConst s => cc_name s
  | SProperty s => drop_rune (pr_name s)   (* without the "$" *)
  | SGlobalVariable s => g_name s
  end.

(** a declaration is in the namespace, or a member of the class, [scope] *)
Definition in_scope (scope : gostr) (s : symbol) : Prop := scope = [] \/ GetScope s = Some scope.

(** a fully qualified name below the namespace [scope], at any depth *)
Definition below (scope fqn : gostr) : Prop :=
  exists rest, fqn = scope ++ BSL :: rest \/ ((exists p, scope = p ++ [BSL]) /\ fqn = scope ++ rest).

Definition found_by {T : Text} (q : search) (s : symbol) : Prop :=
  kind_of s = search_kind q /\
  match q with
  | FindClasses k =>
      exists scope w, qualifier k scope w /\
      ((scope = [] /\ matches w (simple_name s))
       \/ (scope <> [] /\ substring w (simple_name s)
           /\ below scope (match s with SClass c => ts_fqn (c_name c) | _ => [] end)))
  | FindInterfaces k | FindTraits k | FindFunctions k =>
      exists scope w, qualifier k scope w /\ matches w (simple_name s) /\ in_scope scope s
  | FindConsts k | FindDefines k => matches k (simple_name s)
  | FindMethods c k => k <> [] /\ matches k (simple_name s) /\ in_scope c s
  | FindClassConsts c k | FindProperties c k =>
      (k = [] /\ GetScope s = Some c) \/ (k <> [] /\ matches k (simple_name s) /\ in_scope c s)
  end.

(** names without NUL bytes *)
Definition clean_names {T : Text} (h : list event) : Prop :=
  forall d s, In d (synced_docs h) -> In s (d_symbols d) -> ~ In NUL (simple_name s).

Definition covered_search (h : list event) (q : search) : Prop :=
  match q with
  | FindProperties _ _ => plain_uris h
  | FindClassConsts _ _ => no_shared_constants h
  | _ => True
  end.

(** searches that list everything of a class, without looking at the options *)
Definition lists_all (q : search) : Prop :=
  match q with FindClassConsts _ [] | FindProperties _ [] => True | _ => False end.
(** searches by a qualified class name *)
Definition qualified_class (q : search) : Prop :=
  match q with FindClasses k => k = [] \/ In BSL k | _ => False end.

Definition satisfies (o : search_options) (x : symbol) : Prop :=
  forall p, In p (so_predicates o) -> p x = true.

(** Completion entries are never removed, so a symbol is also found by earlier
    spellings of its name ("fooBar" after it was renamed "foobar").  In this
    history no declaration was indexed under another spelling. *)
Definition stable_names {T : Text} (h : list event) : Prop :=
  forall d d' s s', In d (synced_docs h) -> In d' (synced_docs h) -> d_uri d = d_uri d' ->
    In s (d_symbols d) -> In s' (d_symbols d') -> same_entry s s' -> simple_name s = simple_name s'.

Definition keyword (q : search) : gostr :=
  match q with
  | FindClasses k | FindInterfaces k | FindTraits k | FindFunctions k | FindConsts k | FindDefines k => k
  | FindMethods _ k | FindClassConsts _ k | FindProperties _ k => k
  end.
(** the class whose members are searched; "" is any class *)
Definition searched_class (q : search) : gostr :=
  match q with FindMethods c _ | FindClassConsts c _ | FindProperties c _ => c | _ => [] end.

(** lower-casing ASCII text works on each character (strings.ToLower) *)
Definition lowers_ascii (T : Text) : Prop :=
  forall a b, ascii a -> ascii b -> to_lower (a ++ b) = to_lower a ++ to_lower b.

(** [t] is the name or a camel-case or underscore word of it, other than a
    single character in front of an underscore *)
Definition name_or_word {T : Text} (name t : gostr) : Prop :=
  t = name \/ (ascii name /\ exists a b, word is_upper is_digit name a b
               /\ (a = 0 \/ long_enough is_upper is_digit name a b)%nat /\ t = slice name a b).
