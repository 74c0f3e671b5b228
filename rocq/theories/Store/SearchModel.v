(** analysis/completionIndex.go, store.go: searching the completion index.

    A Go panic is [None].  Log output is left out. *)
From Coq Require Import String.
From Coq Require Import List Bool NArith ZArith.
From Coq.Strings Require Import Byte.
From Verif Require Import Base.Bytes Base.Protocol Codec.CodecModel Codec.SymbolCodecModel
  Symbols.Symbols Symbols.KeysModel Storage.KvModel Store.FilterModel Store.StoreModel Types.TypesModel.
Import ListNotations.
Open Scope list_scope.

(** store.go:170-175 SearchOptions.  The limiter closure of WithLimit is its
    limit; the variable [count] it captures is threaded through the searches as
    a separate argument, because copies of the options share it. *)
Record search_options := SearchOptions {
  so_predicates : list (symbol -> bool);
  so_limit : option Z }.
(** store.go:177-180 *)
Definition NewSearchOptions : search_options := SearchOptions [] None.
(** store.go:182-186 *)
Definition WithPredicate (o : search_options) (p : symbol -> bool) : search_options :=
  SearchOptions (so_predicates o ++ [p]) (so_limit o).
(** store.go:188-196; the new closure has its own count, starting at 0 *)
Definition WithLimit (o : search_options) (limit : Z) : search_options :=
  SearchOptions (so_predicates o) (Some limit).
(** store.go:198-204: the new count, and whether the limit is reached *)
Definition IsLimitReached (o : search_options) (count : Z) : Z * bool :=
  match so_limit o with
  | None => (count, false)
  | Some limit => (count + 1, Z.leb limit (count + 1))%Z
  end.

(** store.go:594-607 *)
Definition isSymbolValid (s : symbol) (o : search_options) : bool :=
  forallb (fun p => p s) (so_predicates o).

(** store.go:609-622 *)
Definition namespacePredicate (scope : gostr) (s : symbol) : bool :=
  match scope with
  | [] => true
  | _ => str_eqb (match GetScope s with Some c => c | None => [] end) scope
  end.

(** strings.Contains *)
Fixpoint contains (s sub : gostr) : bool :=
  has_prefix sub s || match s with [] => false | _ :: s' => contains s' sub end.

Section Search.
Context {T : Text} {X : XorFilter}.

(** completionIndex.go:126-152 searchCompletions.  [onData] transforms the
    variables S captured by the query's callback and returns shouldStop. *)
Section Completions.
  Context {S : Type}.
  Variable onData : S -> gostr -> option (S * bool).

  (** the iterator callback, 137-149: state is the set of values seen, the
      callback's variables and shouldStop *)
  Definition com_step (acc : option (list gostr * S * bool)) (k v : gostr)
    : option (list gostr * S * bool) * bool :=
    match acc with
    | None => (None, true)
    | Some (seen, s, stop) =>
        match ReadString v with
        | None => (None, true)
        | Some (cv, _) =>
            if existsb (str_eqb cv) seen then (acc, false)
            else match onData s cv with
                 | None => (None, true)
                 | Some (s', true) => (Some (cv :: seen, s', true), true)
                 | Some (s', false) => (Some (cv :: seen, s', stop), false)
                 end
        end
    end.

  (** 131-150 *)
  Fixpoint com_words (com : leveldb) (collection : gostr) (words : list gostr)
    (acc : option (list gostr * S * bool)) : option (list gostr * S * bool) :=
    match words with
    | [] => acc
    | w :: ws =>
        match acc with
        | Some (_, _, false) =>
            com_words com collection ws
              (ldb_PrefixStream com_step com (newEntry collection (to_lower w)) acc)
        | _ => acc
        end
    end.

  (** the result is the callback's variables and IsComplete *)
  Definition searchCompletions (com : leveldb) (collection keyword : gostr) (s : S) : option (S * bool) :=
    match tokenise keyword with
    | None => None
    | Some words =>
        match com_words com collection words (Some ([], s, false)) with
        | Some (_, s', stop) => Some (s', negb stop)
        | None => None
        end
    end.
End Completions.

(** The onData callbacks of the Search* functions.  [checkEmpty] is the test
    [len(value) == 0] some of them make. *)
Definition fetch {A} (read : dec A) (inj : A -> symbol) (checkEmpty : bool) (db : leveldb)
  (collection cv : gostr) : option (option symbol) :=
  match ldb_Get db (newEntry collection cv) with
  | None => Some None
  | Some v =>
      if (checkEmpty && str_eqb v [])%bool then Some None
      else match read v with
           | Some (a, _) => Some (Some (inj a))
           | None => None
           end
  end.
Definition accept (o : search_options) (acc : list symbol * Z) (s : symbol) : (list symbol * Z) * bool :=
  if isSymbolValid s o then
    let '(count, reached) := IsLimitReached o (snd acc) in
    ((fst acc ++ [s], count), reached)
  else (acc, false).
Definition on_symbol {A} (read : dec A) (inj : A -> symbol) (checkEmpty : bool) (db : leveldb)
  (collection : gostr) (o : search_options) (acc : list symbol * Z) (cv : gostr)
  : option ((list symbol * Z) * bool) :=
  match fetch read inj checkEmpty db collection cv with
  | None => None
  | Some None => Some (acc, false)
  | Some (Some s) => Some (accept o acc s)
  end.

(** results, IsComplete, and the limiter's count afterwards *)
Definition outcome := (list symbol * bool * Z)%type.

Definition search_index {A} (read : dec A) (inj : A -> symbol) (checkEmpty : bool) (st : store)
  (comCollection collection keyword : gostr) (o : search_options) (count : Z) : option outcome :=
  match searchCompletions (on_symbol read inj checkEmpty (s_db st) collection o)
          (s_com st) comCollection keyword ([], count) with
  | Some ((l, count'), complete) => Some (l, complete, count')
  | None => None
  end.

(** store.go:662-674 getClassesByScopeStream *)
Definition getClassesByScopeStream {S} (onData : S -> class -> S * bool) (st : store) (scope : gostr)
  (s : S) : option S :=
  let scope := if str_eqb (skipn (length scope - 1) scope) [BSL] then scope else scope ++ [BSL] in
  ldb_PrefixStream
    (fun acc k v => match acc with
                    | None => (None, true)
                    | Some s => match ReadClass v with
                                | Some (c, _) => let '(s', stop) := onData s c in (Some s', stop)
                                | None => (None, true)
                                end
                    end) (s_db st) (newEntry classCollection scope) (Some s).

(** store.go:676-728 *)
Definition SearchClasses (st : store) (keyword : gostr) (o : search_options) (count : Z) : option outcome :=
  let '(scope, keyword) := GetScopeAndNameFromString keyword in
  match scope with
  | _ :: _ =>
      let o := match keyword with
               | [] => o
               | _ => WithPredicate o (fun s => match s with
                                                | SClass c => contains (ts_original (c_name c)) keyword
                                                | _ => false
                                                end)
               end in
      match getClassesByScopeStream (fun acc c => accept o acc (SClass c)) st scope ([], count) with
      | Some (l, count') => Some (l, true, count')
      | None => None
      end
  | [] =>
      search_index ReadClass SClass true st classCompletionIndex classCollection keyword
        (WithPredicate o (namespacePredicate scope)) count
  end.

(** store.go:741-769 *)
Definition SearchInterfaces (st : store) (keyword : gostr) (o : search_options) (count : Z) : option outcome :=
  let '(scope, keyword) := GetScopeAndNameFromString keyword in
  search_index ReadInterface SInterface false st interfaceCompletionIndex interfaceCollection keyword
    (WithPredicate o (namespacePredicate scope)) count.
(** store.go:782-810 *)
Definition SearchTraits (st : store) (keyword : gostr) (o : search_options) (count : Z) : option outcome :=
  let '(scope, keyword) := GetScopeAndNameFromString keyword in
  search_index ReadTrait STrait false st traitCompletionIndex traitCollection keyword
    (WithPredicate o (namespacePredicate scope)) count.
(** store.go:823-855 *)
Definition SearchFunctions (st : store) (keyword : gostr) (o : search_options) (count : Z) : option outcome :=
  let '(scope, keyword) := GetScopeAndNameFromString keyword in
  search_index ReadFunction SFunction true st functionCompletionIndex functionCollection keyword
    (WithPredicate o (namespacePredicate scope)) count.
(** store.go:868-893 *)
Definition SearchConsts (st : store) (keyword : gostr) (o : search_options) (count : Z) : option outcome :=
  search_index ReadConst SConst false st constCompletionIndex constCollection keyword o count.
(** store.go:906-931 *)
Definition SearchDefines (st : store) (keyword : gostr) (o : search_options) (count : Z) : option outcome :=
  search_index ReadDefine SDefine false st defineCompletionIndex defineCollection keyword o count.
(** store.go:957-994 *)
Definition SearchMethods (st : store) (scope keyword : gostr) (o : search_options) (count : Z) : option outcome :=
  match keyword with
  | [] => Some ([], false, count)
  | _ => search_index ReadMethod SMethod true st methodCompletionIndex methodCollection keyword
           (WithPredicate o (namespacePredicate scope)) count
  end.
(** store.go:1021-1054 *)
Definition SearchClassConsts (st : store) (scope keyword : gostr) (o : search_options) (count : Z) : option outcome :=
  match keyword with
  | [] => match GetAllClassConsts st scope with
          | Some l => Some (map SClassConst l, true, count)
          | None => None
          end
  | _ => search_index ReadClassConst SClassConst false st classConstCompletionIndex classConstCollection keyword
           (WithPredicate o (namespacePredicate scope)) count
  end.
(** store.go:1078-1109 *)
Definition SearchProperties (st : store) (scope keyword : gostr) (o : search_options) (count : Z) : option outcome :=
  match keyword with
  | [] => match GetAllProperties st scope with
          | Some l => Some (map SProperty l, true, count)
          | None => None
          end
  | _ => search_index ReadProperty SProperty false st propertyCompletionIndex propertyCollection keyword
           (WithPredicate o (namespacePredicate scope)) count
  end.

(** store.go:624-649 *)
Definition SearchNamespaces (st : store) (keyword : gostr) : option (list gostr * bool) :=
  let '(scope, keyword) := GetScopeAndNameFromString keyword in
  let scope := if str_eqb scope [BSL] then [] else scope in
  let collection := match scope with
                    | [] => namespaceCompletionIndex
                    | _ => namespaceCompletionIndex ++ KeySep ++ scope
                    end in
  searchCompletions (fun acc cv => Some (acc ++ [hd [] (split_byte cv NUL)], false))
    (s_com st) collection keyword [].

End Search.
