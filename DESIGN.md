# Formal model of phpintel — design

The model is written in Rocq (Coq 8.16.1), standard library only, under
`rocq/theories` (logical name `Verif`).  No axioms are added; no library other
than the standard library is imported.

## Layout

| layer | files | contents |
|---|---|---|
| base | `Base/*.v` | Go strings as `list byte`, byte order, prefix/suffix/split/trim/lower functions of package `strings` |
| model | `*/…Model.v` | transcription of Go functions; every definition cites file and lines |
| spec | `*/…Spec.v` | small, model-independent statements of what a user expects |
| proofs | `*/…Proofs.v` | lemmas |
| claims | `Claims/*.v` | the property theorems (`Cnn_…`), examples meeting the hypotheses, `Print Assumptions` |

## Modelling conventions

* Go `string`/`[]byte` = `list byte` (the 256-constructor type of the standard
  library, so no well-formedness side condition is needed).
* Go `int` = `Z`; where 64-bit wrap-around matters the range hypothesis is explicit.
* A Go panic is an explicit `None`/`Panic` result, never a default value.
* A loop is structural recursion over the list or input it consumes; where the
  loop is not structurally bounded (inheritance graphs) it is a fuelled function
  whose fuel exhaustion is a distinct result, and termination is a theorem.
* Goroutines, channels and mutexes are a labelled transition system; properties
  are invariants over all runs.
* External packages (xxhash, xorfilter, goleveldb, go-phpparser) are section
  parameters with the contract they document as section hypotheses; each theorem
  that uses one shows the parameter and the contract in its statement.
* Where the English property is false of the code, the theorem
  `…_refuted` gives a concrete counter-example run on the model, and a
  `…_partial` theorem proves the strongest part that does hold.

## Plan per property

* **C01 — Primitive codec round trip.** Model every Put/Read of encoding.go on byte lists; typed values as an inductive; induction over the list of values.
* **C02 — Persisted symbols read back unchanged.** Records for all ten kinds, writers and readers transcribed; compositional round-trip lemmas; for lost fields a refutation and a `forget`-characterisation.
* **C03 — Class constant visibility survives indexing.** Refutation by a concrete private constant; partial: public constants survive.
* **C04 — Memory database is a map.** State machine over operations; sorted association list as radix tree; refinement to a function key -> option value by induction over histories.
* **C05 — Batches are all-or-nothing.** Batch as list of operations run against a snapshot; equation with fold of single operations; failure leaves state.
* **C06 — Prefix scan is exact, ordered and stoppable.** Scan transcribed; proof: result = filter of the sorted content; stop cuts after the stopping element.
* **C07 — Combined store read precedence.** Combined store as a pair; case analysis over presence, induction over histories for disk immutability.
* **C08 — Look-ups by name are exact.** Keys as in GetKey/newEntry; prefix of joined NUL-free parts lemma.
* **C09 — Class constant look-up is exact.** Refutation (constant A vs AB) and partial theorem (exact when no other constant name of the class extends the queried one).
* **C10 — Same-named classes in different files do not overwrite each other's members.** Method/property keys contain the URI: disjointness proved; class constant keys do not: refutation.
* **C11 — Symbol kinds never mix.** Collection names pairwise prefix-incomparable with separator; scans of one never hit another.
* **C12 — Indexing a document replaces exactly its own symbols.** Store as state machine over the KV model with deletor; invariant over reachable states: symbol entries = union of latest document contents.
* **C13 — Indexing is idempotent.** Corollary of the invariant of C12.
* **C14 — Deleting a document removes exactly its symbols.** Deletor run to completion; invariant.
* **C15 — No stale completion entries.** Refuted by a concrete index/re-index run; partial: all currently declared names are always found.
* **C16 — Vanished files are cleaned when indexing finishes.** Set algebra on syncedDocumentURIs over arbitrary see-sequences.
* **C17 — Unchanged files are not re-analysed and changed files always are.** Decision function over recorded hash; induction over history for the recorded hash.
* **C18 — Search limits and completeness flags are honest.** Search loop with shared mutable limit counter transcribed; induction over the stream.
* **C19 — Store migration forgets incompatible data only.** Versions abstracted to the semver comparison used; case analysis for all states.
* **C20 — Completion word splitting is sound.** Scanner transcribed on decoded runes; invariant start<=position; outputs are substrings.
* **C21 — A symbol is found by a prefix of its name or of one of its words.** Composition of tokeniser, completion entries and prefix search.
* **C22 — Reference filter has no false negatives.** xorfilter contract as section hypothesis; Insert/Commit/Lookup/Encode as state machine.
* **C23 — Find-references is exact for the indexed contents.** Reference index state machine; invariant; refutation for stale in-memory entries if the code has them.
* **C24 — Line table matches the text.** Independent definition of line starts; induction over the text; refutation for a lone CR.
* **C25 — Offset to position and back.** Round trip for ASCII text; refutation for multi-byte text.
* **C26 — Incremental edits equal full synchronisation.** Splice semantics of edits; line-table equality by append/suffix lemmas on line offsets; refutation for CR/LF joins.
* **C27 — Position conversion never leaves the document.** Case analysis on OffsetAtPosition.
* **C28 — Position and range order.** Lexicographic order; case analysis.
* **C29 — Printed positions parse back.** Decimal printing/parsing; refutation for negatives.
* **C30 — Canonical URIs convert back.** Prefix algebra; refutation for a child that does not lie below the root.
* **C31 — Array suffixes in types.** String functions transcribed; induction over number of suffixes; refutation for the panic.
* **C32 — Name resolution through imports.** Import table transcribed; specification of PHP name resolution written independently; partial where the code deviates.
* **C33 — Type unions have no duplicates.** fold over add; NoDup and order-preserving.
* **C34 — Scoped names split correctly.** LastIndex lemmas.
* **C35 — Namespace index entries cover every level.** Induction over namespace parts.
* **C36 — Inheritance queries terminate.** Fuelled collection; measure = unvisited classes; refutation for class constants and properties on cyclic hierarchies.
* **C37 — Inherited members are complete.** Reachability as inductive relation; equivalence with the collection result.
* **C38 — Overriding members win.** Reduce functions transcribed; first occurrence semantics.
* **C39 — Visibility is respected in member access.** Truth-table style theorem over all contexts.
* **C40 — Variable table stays ordered and finds the latest definition.** Sorted insertion, binary search correctness.
* **C41 — Unused variable reports.** Counting state over recorded occurrences.
* **C42 — Message framing round trip.** Header printing/parsing on byte streams; induction over message sequence.
* **C43 — Reader rejects malformed frames without consuming others' bytes as a message.** Reader result characterised by cases.
* **C44 — Exactly one response per request.** LTS of connection with goroutine states; invariant counting replies per id.
* **C45 — Requests start in order, one at a time.** LTS invariant on the channel chain.
* **C46 — Responses reach the caller that asked.** LTS; invariant for ids and delivery; refutation of progress for unknown ids.
* **C47 — Server life cycle never deadlocks.** Lock state machine; refutation for repeated initialize; partial for sequences without it.
* **C48 — A document is served by the workspace folder that contains it.** Prefix routing; refutation; partial for separator-terminated roots.
* **C49 — Active parameter in signature help.** Argument ranges and sort.Search as least index; theorem relating to number of separators.
* **C50 — Completion items are ranked by score.** sort.SliceStable with a comparator over a detached slice: refuted; partial for already sorted scores.
* **C51 — Document outline shows every declaration once, nested by containment.** Rose trees; induction.
* **C52 — Innermost symbol and class at a position.** Scan over class list; maximality.
* **C53 — Tree traversal visits every node once, parents first.** Rose trees; explicit visitor; pre-order.
* **C54 — Auto-import text.** Edit text and resolution through the import table.
* **C55 — Truncated index data never decodes silently.** Every proper prefix of an encoding decodes to an error; induction over the list of values.
* **C56 — Memory and disk databases are interchangeable.** Refinement of both stores to the same map; induction over histories of batches.
* **C57 — Every word of a name is searchable.** Words defined independently as maximal runs; the scanner's tokens contain each of them.
* **C58 — Indexing never fails.** Totality of every step of the store machine under well-formedness of names; refutation with an ill-formed name.
* **C59 — Deleting a folder removes exactly the files below it.** Deletion by prefix as a filter of the store; refutation for sibling folders.
* **C60 — Unused imports are exactly those no name is resolved through.** Import table as a state machine over resolved names; exactness by induction over the names.
* **C61 — Reported positions are the editor's positions.** UTF-16 columns defined independently; equality for ASCII, refutation beyond.
* **C62 — The token at an offset is the one the cursor is in.** Token search on arbitrary trees; induction over the tree.
* **C63 — The symbol and the call under the cursor are the innermost ones.** Walk with stop/skip answers; last taken symbol characterised through the log of calls.
* **C64 — Completion proposes what matches and says when it is cut.** Search loops over the completion index composed with the look-ups; soundness, bound, completeness below the limit.
* **C65 — Workspace symbol search is exact below the limit.** Composition of the searches of all folders.
* **C66 — Accepting a namespace completes the typed name.** String algebra on the typed word and the proposed name.
* **C67 — Concurrent indexing is as if one file after the other.** Small-step machine whose steps are single writes of concurrent synchronisations; invariant relating every moment to a serial history of the completed operations.
* **C68 — A kill while indexing loses nothing and the index recovers.** Kill steps drop the memory state between any two writes; recovery invariant; refutation of full recovery.
* **C69 — Analysing a file always finishes without a crash.** The sixty analysis functions as one recursion over arbitrary trees with panics explicit; a rule for every function (ends, panics only on trees outside the stated condition); refutation with a group use.
* **C70 — Every symbol found in a file is written there.** Same rules; every added symbol is justified by a node through an independently written relation.
* **C71 — Every declaration in a file is found once under its full name.** Statements of a file defined by a walk of the tree on its own; exact effect of every function on the list of symbols; refutations for the shapes the scanner misses.
* **C72 — Members belong to the class they are written in.** Same, with the member list of a class read off the tree; refutation with a nested anonymous class.
* **C73 — What a file declares is found by its name in the workspace.** The relation between analysed symbols and stored records written down once; composition of C71, C72 with the exactness of look-ups (C08, C09).
* **C74 — What a look-up finds is written in a file.** Composition of C70 with the exactness of look-ups.
* **C75 — Every use of a name in a file is found.** A relation written on its own says which parts of which construct are read and which names are used in it; every scanner function is shown to keep what was found and to find what it reads; induction along the path from the statement to the use; refutations for the constructs that are not read.
* **C76 — A class named in a file is the class PHP takes the name for.** Namespaces and use declarations read off the tree as a row of items (namespaces, imports, statements); invariant: the current import table has the names that hold at the item the scan is at; composition with C75 and C32; refutation with a function in a group.
* **C77 — Find references returns every use and nothing else.** Entries of the reference index as a function of the analysed symbols; the import table found by position is the one of the namespace around the use (binary search over the tables, which start where the namespaces do); composition of C75, C76, C32 with the exactness of the reference index (C23); converse through C70; refutations: Latin-1 property names, imports further down in the file.
* **C78 — Find references from the cursor asks for the declaration under it.** NodeSpineAt on the tree: with tokens that do not overlap, the token the cursor is in and the phrases above it are what is found; the import table the handler asks is always the first one of the file; composition with C23 and C77; refutations for a second namespace, the first letter, a property with a value and a namesake of a function.
* **C79 — Go to definition leads to what the name under the cursor means.** The symbol under the cursor found by binary search over the tree of symbols, if the symbols are listed in the order they begin in and are nested; the full name is looked up again through the imports, which leaves it alone unless an import has the name of its first part; composition with C76, C32, the exactness of the look-ups and C38; soundness for every position through an invariant on the member caches; refutations: renamed full names, interfaces in front of ::, a global function with the name of a namespaced one.
* **C80 — Uses of what is deprecated are marked.** DeprecatedDiagnostics as a walk over the symbols of the analysed file; a symbol is marked if one of the declarations it is looked up as has the tag; composition with C75, C76, C32 and the exactness of the look-ups; soundness and absence of crashes for every file.
* **C81 — Every syntax error is reported once, where it is.** Trees with parse errors in full; induction over the tree: the walk appends one diagnostic for each error; the places through C61; refutation for an error that has no token.
* **C82 — The diagnostics shown are those of the current text.** State machine with the handler, the timer of the store and the searches that run in the background; invariants over histories: under a schedule without typing during a search everything shown is current, for the file changed last also the hints if searches end in turn; refutations: two files within two seconds, a search that is overtaken, a search that ends after an edit.
* **C83 — The types of an expression are those its parts and the index give.** The objects of a file as a heap in which each refers only to older ones; an inductive relation says which expression an object stands for, a separate definition which types an expression has; induction over the heap: what is remembered always fits the expression, so every question ends with the types of the expression; composition with the store for the condition on visibility; refutations: an answer remembered from before the index changed, a class together with an array of it, a variable that is assigned again.
* **C84 — Go to definition on a member leads to the members its receiver has.** The five member cases of the definition handler over the collections of C36-C39; soundness for any number of types and any earlier questions through an invariant: every cached collection holds members of the class-like it is stored under; the first type exactly, from the completeness of a search with an unused name (C37, C38) and a lemma that merging loses nothing; refutation: the second of two types misses an inherited method, as an interface comes out of the cache with the visited names of the first.
* **C85 — Completion behind -> and :: proposes the members the receiver has.** The two member completions over the collections of C84 with the fuzzy filter in between, the matcher being a parameter; the same invariant on cached collections for soundness, the same exactness for the first type; ordering by score is a permutation; refutations: what a trait has is not proposed, and a property without a name makes the server panic.
* **C86 — Signature help marks the parameter of the argument the cursor is in.** The ranges between the commas as the scanner cuts them out of the children of the argument list; positions are ordered as offsets are (C61), so that the first range the cursor is not behind is that of the argument; the specification counts commas. Refutations: directly in front of a comma, and an empty place in front of an argument with a hint.
* **C87 — Signature help shows the functions that are called.** The four ResolveToHasParams functions over the collections of C84: soundness by the invariant on cached collections, exactness for a single type from C37/C38; functions through C32 and the exactness of the look-ups; the spelling of a signature is specified on its own. Refutations: a private constructor gives way to that of the parent, and names of functions are read with the imports of the last namespace of the file.
* **C88 — Hovering over a name shows what it stands for.** The hover handler with the Markdown it writes; a separate specification of the head of each kind of declaration; what the index forgets of a declaration is not shown, so what is looked up shows the declaration; composition with the exactness of the look-ups, C76, C32 and C38 as in C79, and with the collections of C84 for members; the conversion of descriptions is a parameter. Variables are C94.
* **C89 — Renaming a variable changes its occurrences and nothing else.** The rename handler over the variable tables of C40/C41. A Hoare-style induction over the whole analysis shows that what it records for a node is a bracketed sequence: every recorded variable is a variable node in it with that text, every scope a function node in it. An invariant of the tables (ranges and children are those of the opened scopes) gives that the table found is that of the innermost scope; an inserted occurrence only permutes the list of its name. Both together: every edit is a variable of that name in a function around the cursor. A second induction over the analysis shows the other direction: whatever is read in the own code of a function, and every parameter, is recorded between its brackets and not between those of a function in it, so all of it is replaced; and every function that is read opens a scope, so the scope found is that of the innermost function. Refutations: variables of catch clauses, closures with use, captures by reference, parameters under the cursor.
* **C90 — The server follows the editor and the files.** The documents in memory and the index of C01 as one state, the files as another; a relational specification says what the user sees after each happening of a careful session (documents opened as on the disk and closed saved, requests about open documents, deletions notified of what is gone). Invariant over any history: an open document is in memory with the editor's text (by C26) and indexed with it, a closed one is not in memory, a file that was told of is indexed as it is; composition with the exactness of the look-ups. Refutations for each way not to be careful: text of didOpen, requests about closed files, discarded changes, deletion of an open file, a document opened before its file exists, notifications overtaking each other.
* **C91 — A file has one name.** uri.go over a transcription of the part of net/url it uses (for URIs that begin with file:///). The editor's encoding is specified on its own. What one byte becomes under each composition of escaping and unescaping is computed for all 256 bytes; induction over the path gives the name of any path in closed form, and from it that all names agree for simple characters, and where they agree for others. Refutations: plus, percent, colon, reserved characters, blank with reserved character, question mark, control characters, drives.
* **C92 — Completion of a variable offers those of the function around it.** The dispatch of the completion handler as far as variables are concerned, the word in front of the cursor (a regular expression over the characters of the line) and the filter over the variable tables of C40/C89. The word is shown to be the longest one at the end of the line by induction from the left; the line is found through the order of the line table (C26/C61); the names through C40 and the innermost scope of C89, each once as names are the keys of a table. That the parameters and the variables of the own code of the function are among the recorded ones, and from which position on, is the second induction of C89. Refutations: variables of catch clauses and static variables, the name of a variable taken by reference, letters beyond U+00FF.
* **C93 — Completion of a name offers what may stand there.** The whole dispatch of the completion handler: by the phrases around the token at the cursor (read off the stack of parents, one after the other) and, replacing that, by the symbol under the cursor. The phrases are found through the path of C63/C92, the symbol through C75 (every use is reported) and the search of C79, the word through C92 (it has only letters and digits, so it is a legal search word) and the lists through C64. Refutations: interfaces behind the extends of a class, nothing behind the extends of an interface, nothing in the name of a call, the part behind the cursor counts.
* **C94 — Hovering over a variable shows its types.** The text of the hover over the heap of C83; the text is specified on its own (types with their array levels, separated by |). What is remembered in the heap always fits the expression (the invariant of C83), so the text is that of a first question; its types are derivable, and all of them under the conditions of C83. Refutation: a variable that is assigned again is still shown with the old type.
* **C95 — The outline of a file shows what is declared in it.** The handler of C51 over the symbols of the analysis of C69-C72. What an entry should be is specified on its own (kind of the protocol, name, range, and a path of entries each written inside the one before). That entries are written in the file follows from C70 by induction over the symbol tree; that declarations are shown from C71 and C72, which were strengthened to say that the symbol keeps the name as it is written. Refutation: a class inside a chained assignment is shown twice.

## What is modelled

Each row lists the functions of the code that have a counterpart in the model;
the definition's comment cites the exact lines.

| code | model | what is left out of these functions |
|---|---|---|
| `analysis/storage/encoding.go` | `Codec/CodecModel.v` | host byte order other than little-endian, 32-bit `int` |
| Serialise/Read of `class`, `interface`, `trait`, `function`, `const`, `define`, `method`, `classConst`, `property`, `globalVariable` (all in `analysis/`) | `Codec/SymbolCodecModel.v`, `Symbols/Symbols.v` | the `children` slices, which are not stored |
| `analysis/storage/{main,memory,goleveldb}.go` | `Storage/KvModel.v` | I/O errors; the radix tree and LevelDB themselves are an ordered map |
| GetKey, GetIndexableName, GetIndexCollection, collections of `analysis/*.go` | `Symbols/KeysModel.v` | `strings.ToLower` and rune classes: the class `Text` |
| `analysis/store.go` (sync, delete, look-ups, searches, references), `completionIndex.go`, `referenceIndex.go`, `namespace.go` | `Store/StoreModel.v`, `Store/SearchModel.v` | log output, I/O errors |
| `analysis/filter/filter.go` | `Store/FilterModel.v` | `xxhash` and `xorfilter`: the class `XorFilter` |
| creators, deletors and editor synchronisation of `internal/lsp/workspaceStore.go` running together; kills | `Store/WorldModel.v` | power loss; reads of one synchronisation happen at its start |
| `analysis/wordtokeniser/*.go` | `Words/TokeniserModel.v` | Unicode tables are parameters |
| `analysis/symbolType.go` | `Types/TypesModel.v` | — |
| `analysis/importTable.go`, `insertUse.go`, addUseToImportTable of `use.go` | `Types/ImportModel.v` | walking the syntax tree for the insertion point |
| `analysis/query.go` | `Query/QueryModel.v`, `Query/QueryStoreModel.v` | the caches that only repeat an answer of the store |
| `analysis/variable.go`, scopes of `document.go` | `Ide/VariableModel.v` | types of variables |
| `util/traverser.go`, `analysis/symbol.go` walks, finders of `analysis/document.go`, outline of `internal/lsp/symbol.go`, argument positions of `argumentList.go` | `Ide/TreeModel.v` | — |
| positions, line table, edits: `analysis/document.go`, `internal/lsp/protocol/util.go` | `Text/*.v` | — |
| `analysis/symbolBlock.go`, scanning of declarations in `analysis/*.go` | `Analyse/*.v` | see the head of these files |
| `analysis/store.go` writeAllSymbols (what the store is handed for an analysed file), composing `Analyse` and `Store` | `Whole/*.v` | descriptions, types and values of the records |
| SymToRefs, the entries of writeAllSymbols, ReferenceFQN of the symbols, ImportTableAtPos of `document.go` | `Analyse/RefModel.v` | ReferenceLocation (the place of the name of a declaration) |
| `internal/lsp/reference.go` references, NodeSpineAt, HasTypesAtPos of `document.go` | `Whole/CursorModel.v` | |
| `internal/lsp/reference.go` rename, GetContextualVariables of `variable.go` | `Rename/RenameModel.v` | |
| `internal/lsp/definition.go` | `Whole/DefinitionModel.v` | the uses of class members (lines 68-139) |
| `analysis/diagnostic.go`, errorRange of `document.go` | `Whole/DiagnosticModel.v` (unused variables and imports: `Ide/VariableModel.v`, `Types/ImportModel.v`) | deprecated members |
| Resolve and GetTypes of the expressions in `analysis/*.go`, resolveMemberTypes of `relativeScope.go` | `Expr/ExprModel.v`, `Expr/ExprStoreModel.v` | the syntax tree: the analysis is any sequence of constructor calls; PHP's type declarations of parameters are given |
| member cases of `internal/lsp/definition.go` (71-144), Merge…WithScope of `query.go` | `Members/MemberModel.v` | the types of the receiver are given (they are the subject of C83), and so is the class around the access |
| member completion (`internal/lsp/completion.go` 320-411), Search… of `query.go`, items of `symbolConverter.go` | `Members/MemberCompletionModel.v`, `Members/MemberModel.v` | the fuzzy matcher is a parameter; documentation, detail and command of an item are left out; the types of the receiver are given |
| `analysis/argumentList.go`, `internal/lsp/signature.go`, `ResolveToHasParams` and `GetNameLabel` in `analysis/*.go` | `Ide/ArgumentModel.v`, `Members/SignatureModel.v` | finding the call around the cursor; documentation of parameters; the types of the receiver are given |
| `internal/lsp/hover.go`, `internal/lsp/symbolConverter.go` | `Hover/HoverModel.v` | the conversion of descriptions to Markdown is a parameter; variables; the types of a receiver are given |
| `internal/lsp/diagnostics.go`, the debounced timer of `store.go` | `Ide/PublishModel.v` | failing writes to the client |
| `util/uri.go`, folders and life cycle in `internal/lsp/{server,general,workspaceStore}.go` | `Server/WorkspaceModel.v` | `net/url` escaping |
| `internal/jsonrpc2/{stream,jsonrpc2,wire,handler}.go` | `Rpc/*.v` | JSON itself, contexts, message observers |
| `internal/lsp/{completion,symbol}.go`: name, class, scoped, variable completion, workspace symbols, ranking | `Completion/*.v` | labels and documentation of items |
| `internal/lsp/{sync,workspaceStore}.go`, `analysis/store.go:312-425`: documents in memory, messages about documents and files | `Session/SessionModel.v` | messages and jobs one after another; a file has one URI; decoding of URIs is a parameter; one folder |
| `util/uri.go`: URIToPath, PathToURI, DecodeURIFromQuery, and of `net/url` what they use | `Uri/UriModel.v` | only URIs that begin with file:///; net/url is transcribed from its known behaviour (Go 1.18) and so part of the trusted base |
| `internal/lsp/completion.go`: completion (which answer), variableCompletion; `analysis/document.go`: WordAtPos | `Completion/VarCompletionModel.v` | answers that are no variables are one constant; the types shown beside a variable are left out |
| `internal/lsp/completion.go`: completion (the whole dispatch); `util/traverser.go`: NodeStack | `Completion/NameCompletionModel.v` | the member lists (C85) are one constant; labels and edits of names are left out (C54) |
| `internal/lsp/hover.go`: hover, case Variable; `internal/lsp/symbolConverter.go`: variableToHover, wrapCode | `Hover/VariableHoverModel.v` | the description is given; which object stands under the cursor is not modelled |
| `internal/lsp/symbol.go`: documentSymbol for an analysed file; GetName and GetChildren of the symbols | `Whole/OutlineModel.v` | the description (detail) is given as a function of the symbol |

## What is not modelled

* `go-phpparser` (an external package): models that need syntax trees take any
  tree.
* JSON encoding of the protocol types (`encoding/json`, `protocol/protocol.go`).
* `main.go`, `stub/`, command line and logging.
* The Go scheduler, memory model and garbage collector: a goroutine is a sequence
  of atomic steps between the points where others can interfere.
* Data races: concurrent accesses to Go maps without lock are modelled as if they
  were atomic, so a crash by the race detector of the run time is outside.

## Trusted base

* Coq's kernel (8.16.1) and its virtual machine, which `vm_compute` uses in
  examples and refutations.
* The transcription of Go into Gallina; every definition cites its lines so that
  it can be compared.
* The meaning of Go's standard library functions as written in `Base/*.v`.
* **Assumptions.** `Print Assumptions` stands below every claim theorem and
  prints "Closed under the global context" for every one of them: no axiom, of
  ours or of a library, is used.  (Loading the standard library brings seven
  axioms of `Coq.ssr.ssrunder` and the primitive types into the environment; no
  theorem depends on them.)
* **Parameters.** The classes `Text` (case mapping, rune classes), `XorFilter`
  (hash and filter), `TrimSpace` (strings.TrimSpace) and the version parser of
  C19 are universally quantified arguments of the theorems.  What a theorem
  needs of them is a visible hypothesis (`text_ok`, `filter_ok`, `trim_ok`), and
  `Store/Examples.v` contains instances that satisfy them.

## Assumptions per theorem

Generated from the manifest; the last column is what `Print Assumptions` prints.

| property | status | theorems | assumptions |
|---|---|---|---|
| C01 | proved | `C01_sequence_roundtrip`, `C01_writes_append` | none (closed) |
| C02 | partial | `C02_class`, `C02_interface`, `C02_trait`, `C02_function_partial`, `C02_method_partial`, `C02_const`, `C02_define`, `C02_class_const_partial`, `C02_property`, `C02_global_variable`, `C02_parameter_documentation_refuted` | none (closed) |
| C03 | partial | `C03_visibility_refuted`, `C03_visibility_partial` | none (closed) |
| C04 | proved | `C04_memory_is_a_map`, `C04_leveldb_is_a_map` | none (closed) |
| C05 | proved | `C05_failed_batch_changes_nothing`, `C05_committed_batch_is_sequential`, `C05_batch_invisible_until_done` | none (closed) |
| C06 | proved | `C06_memory_scan`, `C06_leveldb_scan` | none (closed) |
| C07 | proved | `C07_read_precedence`, `C07_memory_mode_never_writes_disk`, `C07_scan_from_all` | none (closed) |
| C08 | partial | `C08_look_ups_exact_partial`, `C08_properties_exact_refuted` | none (closed) |
| C09 | partial | `C09_class_constants_exact_partial`, `C09_class_constants_exact_refuted` | none (closed) |
| C10 | partial | `C10_members_kept_partial`, `C10_class_constants_kept_refuted` | none (closed) |
| C11 | proved | `C11_kinds_apart`, `C11_answers_have_the_kind` | none (closed) |
| C12 | partial | `C12_sync_replaces_own_symbols_partial`, `C12_other_files_unchanged_refuted` | none (closed) |
| C13 | proved | `C13_sync_idempotent` | none (closed) |
| C14 | partial | `C14_delete_removes_own_symbols_partial`, `C14_other_files_kept_refuted` | none (closed) |
| C15 | partial | `C15_search_results_current_partial`, `C15_namespaces_refuted` | none (closed) |
| C16 | partial | `C16_vanished_files_cleaned_partial` | none (closed) |
| C17 | partial | `C17_changed_files_analysed_partial`, `C17_changed_during_indexing_refuted` | none (closed) |
| C18 | partial | `C18_limits_partial`, `C18_complete_partial`, `C18_results_match_partial`, `C18_qualified_classes_refuted`, `C18_listing_constants_refuted`, `C18_limit_zero_refuted`, `C18_old_spelling_refuted` | none (closed) |
| C19 | partial | `C19_migration_partial`, `C19_version_recorded_refuted`, `C19_namespaces_forgotten_refuted` | none (closed) |
| C20 | partial | `C20_tokens_sound`, `C20_tokens_total_partial`, `C20_never_fails_refuted`, `C20_non_empty_refuted` | none (closed) |
| C21 | partial | `C21_found_by_prefix_partial` | none (closed) |
| C22 | partial | `C22_no_false_negatives_partial`, `C22_never_reported_absent`, `C22_populate_failure_refuted` | none (closed) |
| C23 | partial | `C23_references_exact_partial`, `C23_references_sound`, `C23_filter_failure_refuted` | none (closed) |
| C24 | partial | `C24_every_text_has_lines`, `C24_line_table_partial`, `C24_lone_cr_refuted` | none (closed) |
| C25 | partial | `C25_order`, `C25_round_trip_partial`, `C25_non_ascii_refuted` | none (closed) |
| C26 | partial | `C26_edits_partial`, `C26_astral_refuted`, `C26_past_line_end_refuted`, `C26_cr_before_lf_refuted`, `C26_detected_terminator_refuted` | none (closed) |
| C27 | partial | `C27_in_document`, `C27_after_edits_partial`, `C27_negative_line_edit_refuted` | none (closed) |
| C28 | proved | `C28_compare_positions`, `C28_total_order`, `C28_in_range`, `C28_compare_ranges` | none (closed) |
| C29 | partial | `C29_position`, `C29_range_partial`, `C29_negative_range_refuted` | none (closed) |
| C30 | partial | `C30_round_trip`, `C30_distinct`, `C30_plain_paths_refuted` | none (closed) |
| C31 | partial | `C31_array_suffixes_partial`, `C31_dearray`, `C31_fails_exactly`, `C31_never_fails_refuted`, `C31_printed_back_refuted` | none (closed) |
| C32 | partial | `C32_class_names_partial`, `C32_function_names_partial`, `C32_constant_names_partial`, `C32_possible_function_names_partial`, `C32_fully_qualified_refuted`, `C32_case_refuted`, `C32_qualified_function_refuted`, `C32_global_function_refuted` | none (closed) |
| C33 | proved | `C33_unions_without_duplicates`, `C33_first_appearance`, `C33_idempotent` | none (closed) |
| C34 | partial | `C34_scope_and_name`, `C34_every_string_refuted` | none (closed) |
| C35 | partial | `C35_levels`, `C35_every_level`, `C35_underscore_refuted` | none (closed) |
| C36 | partial | `C36_methods_and_interfaces_terminate_partial`, `C36_constants_and_properties_terminate_partial`, `C36_terminates_refuted` | none (closed) |
| C37 | partial | `C37_methods_complete_partial`, `C37_only_declared_methods`, `C37_interface_methods_complete_partial`, `C37_properties_complete_partial`, `C37_constants_complete_partial`, `C37_repeated_query_refuted`, `C37_interface_after_class_refuted`, `C37_trait_properties_refuted` | none (closed) |
| C38 | partial | `C38_each_name_once`, `C38_methods_override_partial`, `C38_properties_override_partial`, `C38_constants_override_partial`, `C38_case_refuted`, `C38_constructor_partial`, `C38_constructor_refuted` | none (closed) |
| C39 | partial | `C39_access_partial`, `C39_relations`, `C39_static_score`, `C39_static_partial`, `C39_private_parent_refuted`, `C39_private_static_refuted`, `C39_protected_refuted` | none (closed) |
| C40 | proved | `C40_lookup_latest`, `C40_lookup_nothing`, `C40_variables_offered`, `C40_file` | none (closed) |
| C41 | partial | `C41_unused_partial`, `C41_out_of_order_refuted`, `C41_file_partial` | none (closed) |
| C42 | partial | `C42_round_trip_partial`, `C42_large_refuted` | none (closed) |
| C43 | proved | `C43_delivered_exactly_frames`, `C43_bad_line_fails`, `C43_missing_length_fails` | none (closed) |
| C44 | partial | `C44_at_most_one_response_partial`, `C44_all_answered_partial`, `C44_goroutines_end`, `C44_empty_id_refuted`, `C44_odd_id_refuted` | none (closed) |
| C45 | proved | `C45_start_in_order`, `C45_start_once`, `C45_acts_after_start` | none (closed) |
| C46 | partial | `C46_distinct_ids`, `C46_responses_reach_their_call`, `C46_keeps_reading_partial`, `C46_unknown_id_refuted`, `C46_second_response_refuted`, `C46_cancelled_call_refuted` | none (closed) |
| C47 | partial | `C47_blocks_exactly`, `C47_answers_partial`, `C47_second_initialize_refuted` | none (closed) |
| C48 | partial | `C48_right_folder_partial`, `C48_lookalike_refuted`, `C48_nested_refuted` | none (closed) |
| C49 | partial | `C49_commas_started`, `C49_commas_before_partial`, `C49_before_comma_refuted` | none (closed) |
| C50 | partial | `C50_same_items`, `C50_in_order_partial`, `C50_ranking_refuted` | none (closed) |
| C51 | proved | `C51_outline` | none (closed) |
| C52 | partial | `C52_class_at_partial`, `C52_class_scope_partial`, `C52_next_class_refuted`, `C52_nested_class_refuted`, `C52_variable_scope`, `C52_imports_at` | none (closed) |
| C53 | proved | `C53_syntax_tree_walk`, `C53_symbol_walk`, `C53_enter_and_leave` | none (closed) |
| C54 | partial | `C54_auto_import_partial`, `C54_conflict_refuted`, `C54_shadowed_refuted` | none (closed) |
| C55 | proved | `C55_truncated_data_never_decodes` | none (closed) |
| C56 | partial | `C56_memory_and_leveldb_agree_partial`, `C56_interchangeable_refuted` | none (closed) |
| C57 | partial | `C57_words_are_tokens_partial`, `C57_all_words_refuted` | none (closed) |
| C58 | partial | `C58_indexing_never_fails_partial`, `C58_folder_indexing_never_fails_partial`, `C58_indexing_fails_refuted` | none (closed) |
| C59 | partial | `C59_delete_folder_by_prefix_partial`, `C59_sibling_folder_kept_refuted` | none (closed) |
| C60 | partial | `C60_unused_imports_partial`, `C60_fully_qualified_refuted` | none (closed) |
| C61 | partial | `C61_reported_positions_partial`, `C61_non_ascii_refuted` | none (closed) |
| C62 | proved | `C62_token_at` | none (closed) |
| C63 | partial | `C63_symbol_at_partial`, `C63_argument_list_partial`, `C63_callee_partial`, `C63_callee_refuted`, `C63_symbol_before_partial` | none (closed) |
| C64 | partial | `C64_proposals_partial`, `C64_mark_partial`, `C64_mark_refuted` | none (closed) |
| C65 | partial | `C65_workspace_symbols_partial` | none (closed) |
| C66 | partial | `C66_namespace_completion_partial`, `C66_other_case_refuted` | none (closed) |
| C67 | partial | `C67_concurrent_indexing_partial`, `C67_as_if_one_by_one_partial`, `C67_never_stuck_partial`, `C67_same_file_refuted` | none (closed) |
| C68 | partial | `C68_kill_while_indexing_partial`, `C68_stale_symbols_refuted` | none (closed) |
| C69 | partial | `C69_analysis_ends`, `C69_no_crash_partial`, `C69_no_crash_refuted` | none (closed) |
| C70 | proved | `C70_symbols_come_from_the_file` | none (closed) |
| C71 | partial | `C71_statements_partial`, `C71_declaration_found_partial`, `C71_define_found_partial`, `C71_finally_refuted`, `C71_type_name_refuted`, `C71_define_refuted`, `C71_once_refuted` | none (closed) |
| C72 | partial | `C72_methods_partial`, `C72_properties_partial`, `C72_constants_partial`, `C72_scope_refuted` | none (closed) |
| C73 | partial | `C73_declared_then_found_partial`, `C73_member_then_found_partial` | none (closed) |
| C74 | partial | `C74_found_then_written_partial` | none (closed) |
| C75 | partial | `C75_uses_found_partial`, `C75_finally_refuted`, `C75_coalesce_refuted`, `C75_subscript_refuted`, `C75_compound_refuted`, `C75_interface_extends_refuted` | none (closed) |
| C76 | partial | `C76_class_uses_partial`, `C76_group_refuted` | none (closed) |
| C77 | partial | `C77_class_references_partial`, `C77_member_references_partial`, `C77_function_references_partial`, `C77_nothing_else_partial`, `C77_latin1_refuted`, `C77_later_import_refuted` | none (closed) |
| C78 | partial | `C78_method_partial`, `C78_class_constant_partial`, `C78_property_partial`, `C78_class_partial`, `C78_function_partial`, `C78_elsewhere_partial`, `C78_calls_partial`, `C78_class_uses_partial`, `C78_second_namespace_refuted`, `C78_first_letter_refuted`, `C78_initial_value_refuted`, `C78_namesake_refuted` | none (closed) |
| C79 | partial | `C79_class_names_partial`, `C79_functions_partial`, `C79_constants_partial`, `C79_new_partial`, `C79_nothing_else_partial`, `C79_renamed_refuted`, `C79_interface_access_refuted`, `C79_hidden_function_refuted` | none (closed) |
| C80 | partial | `C80_class_names_partial`, `C80_functions_partial`, `C80_constants_partial`, `C80_nothing_else_partial`, `C80_no_crash_partial` | none (closed) |
| C81 | partial | `C81_each_error_once`, `C81_errors_are_listed`, `C81_where_it_is_partial`, `C81_nowhere_refuted` | none (closed) |
| C82 | partial | `C82_errors_current_partial`, `C82_last_file_partial`, `C82_one_answer`, `C82_other_file_refuted`, `C82_overtaken_refuted`, `C82_stale_refuted` | none (closed) |
| C83 | partial | `C83_always_answered`, `C83_no_memory_partial`, `C83_only_derivable`, `C83_exact_partial`, `C83_without_private_members`, `C83_later_occurrence`, `C83_stale_refuted`, `C83_two_levels_refuted`, `C83_reassigned_refuted` | none (closed) |
| C84 | partial | `C84_method_leads_to_members`, `C84_scoped_method_leads_to_members`, `C84_property_leads_to_members`, `C84_scoped_property_leads_to_members`, `C84_constant_leads_to_members`, `C84_ends_partial`, `C84_method_of_class_partial`, `C84_method_of_interface_partial`, `C84_method_of_trait_partial`, `C84_scoped_method_partial`, `C84_property_partial`, `C84_scoped_property_partial`, `C84_constant_partial`, `C84_constant_of_interface_partial`, `C84_union_refuted` | none (closed) |
| C85 | partial | `C85_arrow_proposals`, `C85_static_proposals`, `C85_ends_partial`, `C85_arrow_no_crash_partial`, `C85_arrow_of_class_partial`, `C85_static_of_class_partial`, `C85_arrow_of_interface_partial`, `C85_trait_refuted`, `C85_crash_refuted` | none (closed) |
| C86 | partial | `C86_active_parameter`, `C86_active_parameter_partial`, `C86_comma_refuted`, `C86_hints_partial`, `C86_hints_refuted` | none (closed) |
| C87 | partial | `C87_method_signatures`, `C87_static_signatures`, `C87_new_signatures`, `C87_ends`, `C87_method_of_class_partial`, `C87_method_of_interface_partial`, `C87_static_of_class_partial`, `C87_new_of_class_partial`, `C87_functions_partial`, `C87_private_constructor_refuted`, `C87_trait_refuted`, `C87_namespace_refuted` | none (closed) |
| C88 | partial | `C88_class_names_partial`, `C88_functions_partial`, `C88_constants_partial`, `C88_new_partial`, `C88_nothing_else_partial`, `C88_method_shows_members`, `C88_scoped_method_shows_members`, `C88_property_shows_members`, `C88_scoped_property_shows_members`, `C88_constant_shows_members`, `C88_ends_partial`, `C88_method_of_class_partial`, `C88_method_of_interface_partial`, `C88_method_of_trait_partial`, `C88_scoped_method_partial`, `C88_property_partial`, `C88_scoped_property_partial`, `C88_constant_partial`, `C88_constant_of_interface_partial` | none (closed) |
| C89 | partial | `C89_recorded`, `C89_edits_partial`, `C89_catch_refuted`, `C89_closure_refuted`, `C89_reference_refuted`, `C89_parameter_refuted` | none (closed) |
| C90 | partial | `C90_careful_partial`, `C90_lookups_partial`, `C90_opened_text_refuted`, `C90_stale_document_refuted`, `C90_stale_notification_refuted`, `C90_discarded_refuted`, `C90_ghost_refuted`, `C90_new_file_refuted`, `C90_reordered_refuted` | none (closed) |
| C91 | partial | `C91_one_name_partial`, `C91_indexed_partial`, `C91_indexer_not_stuck_partial`, `C91_read_partial`, `C91_distinct`, `C91_plus_refuted`, `C91_percent_refuted`, `C91_colon_refuted`, `C91_two_names_refuted`, `C91_blank_refuted`, `C91_question_refuted`, `C91_control_refuted`, `C91_drive_refuted` | none (closed) |
| C92 | partial | `C92_offered_partial`, `C92_static_property`, `C92_written_partial`, `C92_function_partial`, `C92_catch_refuted`, `C92_static_refuted`, `C92_reference_refuted`, `C92_letters_refuted` | none (closed) |
| C93 | partial | `C93_place_partial`, `C93_class_partial`, `C93_use_partial`, `C93_variables`, `C93_extends_refuted`, `C93_interface_extends_refuted`, `C93_call_refuted`, `C93_inside_refuted` | none (closed) |
| C94 | partial | `C94_shown_partial`, `C94_no_memory_partial`, `C94_reassigned_refuted` | none (closed) |
| C95 | partial | `C95_written`, `C95_declaration_partial`, `C95_define_partial`, `C95_methods_partial`, `C95_properties_partial`, `C95_constants_partial`, `C95_order_partial`, `C95_methods_order_partial`, `C95_once_refuted` | none (closed) |
