{"id": "C01", "title": "Primitive codec round trip", "statement": "Any sequence of values (ints, unsigned ints, floats as bit patterns, byte strings, strings, booleans, positions, locations) written with a storage Encoder is read back, in the same order and with the same types, by a Decoder over the produced bytes; the Decoder then has exactly the bytes that followed left over.", "quantifier": "every finite sequence of typed values within their Go ranges and every trailing byte string", "why_tests_cant": "the space of value sequences is infinite; wrong widths or sign handling show only on specific values or on a specific neighbour field", "anchors": ["analysis/storage/encoding.go: Encoder.Write*, Decoder.Read*, PutUInt64, PutInt64, PutUInt32, ReadInt64, ReadUInt32"]}
{"id": "C02", "title": "Persisted symbols read back unchanged", "statement": "A class, interface, trait, function, method, constant, define, class constant, property or global variable that has been stored in the index is returned by look-ups with the same name, types, parameters, modifiers, documentation, deprecation and location as the analyser produced.", "quantifier": "every symbol of each of the ten persisted kinds, including every length of its parameter, interface, trait-use and type lists", "why_tests_cant": "records have unbounded nested lists; a field that is dropped or reordered is only visible for symbols using it, and a desynchronised reader corrupts unrelated fields", "anchors": ["analysis/class.go: Class.Serialise, ReadClass", "analysis/interface.go: ReadInterface", "analysis/trait.go", "analysis/function.go: ReadFunction", "analysis/method.go: ReadMethod", "analysis/const.go", "analysis/define.go", "analysis/classConst.go", "analysis/property.go", "analysis/globalVariable.go", "analysis/parameter.go: ReadParameter", "analysis/symbolType.go: TypeString.Write, TypeComposite.Write", "analysis/phpDocComment.go: serialiseDeprecatedTag"]}
{"id": "C03", "title": "Class constant visibility survives indexing", "statement": "A private or protected class constant is still private or protected when it is looked up from the index.", "quantifier": "every class constant", "why_tests_cant": "holds for every public constant, so tests that only use public constants pass", "anchors": ["analysis/classConst.go: ClassConst.Serialise, ReadClassConst"]}
{"id": "C04", "title": "Memory database is a map", "statement": "After any history of put, delete, clear and batch operations, get on the in-memory database returns the value of the last put of that key that was not followed by a delete or clear of it, and an error for all other keys.", "quantifier": "every finite history of operations and every key", "why_tests_cant": "histories are unbounded and interactions between batches, clears and deletes of neighbouring keys need arbitrary interleavings", "anchors": ["analysis/storage/memory.go: memory.Put, Get, Delete, Clear, WriteBatch"]}
{"id": "C05", "title": "Batches are all-or-nothing", "statement": "A write batch whose callback fails leaves the database unchanged; a batch whose callback succeeds has the same effect as performing its puts and deletes in order; nothing of a batch is visible before it finishes.", "quantifier": "every database state, every batch content, success or failure of the callback", "why_tests_cant": "needs every content and every point of failure", "anchors": ["analysis/storage/memory.go: WriteBatch, memoryBatch", "analysis/storage/goleveldb.go: WriteBatch"]}
{"id": "C06", "title": "Prefix scan is exact, ordered and stoppable", "statement": "Scanning a prefix calls back exactly once for each stored key that starts with the prefix, with its current value, in ascending byte order, and makes no further call after the callback asks to stop.", "quantifier": "every database content, prefix and stopping point", "why_tests_cant": "needs all key sets, including keys that extend each other and keys sharing only part of the prefix", "anchors": ["analysis/storage/memory.go: PrefixStream, memoryIterator", "analysis/storage/goleveldb.go: PrefixStream"]}
{"id": "C07", "title": "Combined store read precedence", "statement": "Reading a key from a memory-and-disk store returns the memory copy when present, otherwise the disk copy, and fails only when neither has it; in memory mode the disk copy is never written.", "quantifier": "every pair of database contents, every key and both modes", "why_tests_cant": "needs all combinations of presence in both stores", "anchors": ["analysis/storage/main.go: Combined.GetFromAll, Combined.mode, PrefixStreamFromAll"]}
{"id": "C08", "title": "Look-ups by name are exact", "statement": "Looking up a class, interface, trait, function, constant, define, method or property by its name returns exactly the stored symbols that bear that name (for classes ignoring the case of the last name part, for methods ignoring case of the method name), from every file, and no symbol of another name.", "quantifier": "every index content and every queried name that contains no NUL byte", "why_tests_cant": "a prefix scan is wrong only when one name is a prefix of another; needs all pairs of names", "anchors": ["analysis/store.go: GetClasses, GetInterfaces, GetTraits, GetFunctions, GetConsts, GetDefines, GetMethods, GetProperties, newEntry", "analysis/class.go: GetKey"]}
{"id": "C09", "title": "Class constant look-up is exact", "statement": "Looking up a class constant by class and name returns exactly the stored constants of that class with that name.", "quantifier": "every index content, class and constant name", "why_tests_cant": "fails only when one constant's name is a proper prefix of another's in the same class", "anchors": ["analysis/store.go: GetClassConsts", "analysis/classConst.go: GetKey"]}
{"id": "C10", "title": "Same-named classes in different files do not overwrite each other's members", "statement": "When two files declare a class with the same name, indexing one does not remove or replace the methods, properties or class constants that the other file declares.", "quantifier": "every pair of files and every set of members", "why_tests_cant": "needs all pairs of files with colliding names", "anchors": ["analysis/classConst.go: GetKey", "analysis/method.go: GetKey", "analysis/property.go: GetKey"]}
{"id": "C11", "title": "Symbol kinds never mix", "statement": "A symbol stored under one kind is never returned by a query for another kind, nor does storing it disturb the stored entries of another kind.", "quantifier": "every pair of kinds, names and index contents", "why_tests_cant": "requires the key spaces of all kinds to be disjoint for all names", "anchors": ["analysis/store.go: collection constants, KeySep, newEntry"]}
{"id": "C12", "title": "Indexing a document replaces exactly its own symbols", "statement": "After a document is (re)indexed, the index holds for that document exactly the symbols of its latest content: new symbols are found, symbols no longer declared are gone, and the symbols of other documents are unchanged.", "quantifier": "every index state reachable by indexing and deleting documents, every document and new symbol list", "why_tests_cant": "depends on the whole history of previous contents of the document", "anchors": ["analysis/store.go: SyncDocument, writeAllSymbols, indexDocumentSymbols, newSymbolDeletor"]}
{"id": "C13", "title": "Indexing is idempotent", "statement": "Indexing the same document content twice in a row leaves the symbol index as after the first time.", "quantifier": "every reachable index state and document", "why_tests_cant": "history dependent", "anchors": ["analysis/store.go: SyncDocument"]}
{"id": "C14", "title": "Deleting a document removes exactly its symbols", "statement": "After a file is deleted no symbol declared in it is returned by any look-up, and the symbols of all other files are still returned.", "quantifier": "every reachable index state and every document", "why_tests_cant": "depends on the whole history, including several re-indexings before the deletion", "anchors": ["analysis/store.go: DeleteDocument, symbolDeletor.Delete"]}
{"id": "C15", "title": "No stale completion entries", "statement": "A completion or workspace-symbol search only proposes names that are declared by the latest indexed content of an existing file.", "quantifier": "every history of indexing and deleting files and every search keyword", "why_tests_cant": "staleness needs a rename or deletion after an earlier indexing and then a search for the old name", "anchors": ["analysis/store.go: SyncDocument, DeleteDocument", "analysis/completionIndex.go: newCompletionIndexDeletor, completionIndexDeletor.Delete"]}
{"id": "C16", "title": "Vanished files are cleaned when indexing finishes", "statement": "When the folder has been re-indexed, exactly those previously indexed files that were not seen again during this indexing are removed from the index.", "quantifier": "every set of previously indexed files and every sequence of files seen during indexing", "why_tests_cant": "needs every subset and order", "anchors": ["analysis/store.go: PrepareForIndexing, CompareAndIndexDocument, FinishIndexing"]}
{"id": "C17", "title": "Unchanged files are not re-analysed and changed files always are", "statement": "During folder indexing a file is analysed again exactly when it was not indexed before or its content hash differs from the recorded one.", "quantifier": "every recorded state, file and content", "why_tests_cant": "depends on the persisted history of hashes", "anchors": ["analysis/store.go: CompareAndIndexDocument"]}
{"id": "C18", "title": "Search limits and completeness flags are honest", "statement": "A search with limit n returns at most n results, all of which satisfy every predicate; when it reports to be complete the results are all matching symbols.", "quantifier": "every index content, keyword, limit and list of predicates", "why_tests_cant": "needs every number of matches around the limit and every order", "anchors": ["analysis/store.go: SearchOptions.WithLimit, IsLimitReached, isSymbolValid, SearchClasses and siblings", "analysis/completionIndex.go: searchCompletions"]}
{"id": "C19", "title": "Store migration forgets incompatible data only", "statement": "Opening an index written by a version older than the minimum clears it, opening one that is new enough keeps every entry, and in both cases the recorded version becomes the running version.", "quantifier": "every stored version, running version and index content", "why_tests_cant": "needs all version orderings", "anchors": ["analysis/store.go: Migrate, GetStoreVersion, PutVersion, Clear"]}
{"id": "C20", "title": "Completion word splitting is sound", "statement": "Splitting an identifier for the completion index always yields the identifier itself first, then only distinct non-empty substrings of it, never fails and is deterministic, for any byte string.", "quantifier": "every byte string, including invalid UTF-8", "why_tests_cant": "the scanner keeps five pieces of state; slicing errors occur only on particular character class sequences", "anchors": ["analysis/wordtokeniser/index.go: Tokenise", "analysis/wordtokeniser/casing.go: casing"]}
{"id": "C21", "title": "A symbol is found by a prefix of its name or of one of its words", "statement": "After indexing, a completion search whose keyword is a case-insensitive prefix of the symbol's name or of one of its camel-case or underscore words finds the symbol.", "quantifier": "every symbol name, every word of it and every non-empty prefix of that word", "why_tests_cant": "needs all names and prefixes", "anchors": ["analysis/completionIndex.go: createCompletionEntries, searchCompletions"]}
{"id": "C22", "title": "Reference filter has no false negatives", "statement": "A reference stored in a file's reference filter is always reported as possibly present, also after the filter has been saved and reloaded.", "quantifier": "every list of references inserted before the commit", "why_tests_cant": "the set of reference lists is infinite; a single lost key silently drops find-references results", "anchors": ["analysis/filter/filter.go: Filter.Insert, Commit, Lookup, Encode, FilterDecode"]}
{"id": "C23", "title": "Find-references is exact for the indexed contents", "statement": "Searching a symbol's references returns exactly the locations recorded for it by the latest indexing of each file, none missing, none of another symbol, and none of a deleted file.", "quantifier": "every history of indexing and deleting files and every searched symbol", "why_tests_cant": "depends on the whole history and on filter contents", "anchors": ["analysis/referenceIndex.go: referenceIndex.index, search, deleteURI, newReferenceIndex"]}
{"id": "C24", "title": "Line table matches the text", "statement": "After a document's text is set, line i starts right after the i-th line terminator (LF, CR LF or CR), for every line.", "quantifier": "every text", "why_tests_cant": "needs all texts with all mixtures of line terminators", "anchors": ["analysis/document.go: SetText, calculateLineOffsets"]}
{"id": "C25", "title": "Offset to position and back", "statement": "Converting any offset of a document to a line/character position and back gives the same offset, and positions are ordered like offsets.", "quantifier": "every text and every offset in it", "why_tests_cant": "needs all texts; wrong only at line boundaries or on non-ASCII text", "anchors": ["analysis/document.go: positionAt, OffsetAtPosition, lineAt"]}
{"id": "C26", "title": "Incremental edits equal full synchronisation", "statement": "Applying a sequence of incremental content changes leaves the document with the text an editor would have after the same edits, and with the same line table as opening that text afresh.", "quantifier": "every text and every sequence of range edits valid for it", "why_tests_cant": "edit sequences are unbounded; line tables go wrong only for particular combinations of removed and inserted line breaks", "anchors": ["analysis/document.go: ApplyChanges"]}
{"id": "C27", "title": "Position conversion never leaves the document", "statement": "For every requested position, also beyond the end of a line or of the file or negative, the computed offset lies within the document.", "quantifier": "every text and every pair of integers as position", "why_tests_cant": "needs all positions", "anchors": ["analysis/document.go: OffsetAtPosition, offsetAtLine"]}
{"id": "C28", "title": "Position and range order", "statement": "Position comparison is a total order consistent with line-then-character order; a position is reported inside a range exactly when it is at or after its start and strictly before its end.", "quantifier": "every pair of positions and every range", "why_tests_cant": "needs all pairs and triples", "anchors": ["internal/lsp/protocol/util.go: ComparePos, IsInRange, CompareRange"]}
{"id": "C29", "title": "Printed positions parse back", "statement": "Parsing the textual form of a position or range yields the same position or range.", "quantifier": "every pair or quadruple of machine integers", "why_tests_cant": "infinite domain; negative numbers share the separator character", "anchors": ["internal/lsp/protocol/util.go: PosFromString, RangeFromString", "internal/lsp/protocol/protocol.go: Position.String, Range.String"]}
{"id": "C30", "title": "Canonical URIs convert back", "statement": "Shortening the URI of a file of the workspace relative to the workspace root and expanding it again gives the original URI, and different files have different short URIs.", "quantifier": "every workspace root and every file URI below it", "why_tests_cant": "needs all pairs of root and child", "anchors": ["util/uri.go: CanonicaliseURI, URIFromCanonicalURI"]}
{"id": "C31", "title": "Array suffixes in types", "statement": "A type written with n trailing [] pairs is read as the element type with array depth n and printed back identically; removing one array level undoes one pair; no type text makes the analyser fail.", "quantifier": "every type text", "why_tests_cant": "needs all strings", "anchors": ["analysis/symbolType.go: NewTypeString, resolveRawWithArrayLevel, Dearray, ToString"]}
{"id": "C32", "title": "Name resolution through imports", "statement": "A class, function or constant name is resolved as PHP does: a fully qualified name stays as it is; a name whose first part was imported (or aliased) has that part replaced by the import; any other name is placed in the current namespace.", "quantifier": "every import table, namespace and name", "why_tests_cant": "needs all combinations of aliases, qualified names and namespaces", "anchors": ["analysis/importTable.go: GetClassReferenceFQN, GetFunctionReferenceFQN, GetConstReferenceFQN", "analysis/symbolType.go: SetNamespace, GetParts"]}
{"id": "C33", "title": "Type unions have no duplicates", "statement": "Merging types into a union keeps each fully qualified type once, in order of first appearance, and merging is idempotent.", "quantifier": "every pair of unions", "why_tests_cant": "needs all unions", "anchors": ["analysis/symbolType.go: TypeComposite.add, merge"]}
{"id": "C34", "title": "Scoped names split correctly", "statement": "A fully qualified name is split into namespace scope and short name so that joining them gives the name back.", "quantifier": "every string", "why_tests_cant": "needs all strings, including those without or with trailing separators", "anchors": ["analysis/symbolType.go: GetScopeAndNameFromString"]}
{"id": "C35", "title": "Namespace index entries cover every level", "statement": "Indexing a namespace of depth n makes each of its n levels findable under its parent scope, and nothing else.", "quantifier": "every namespace name", "why_tests_cant": "depth is unbounded", "anchors": ["analysis/namespace.go: indexablesFromNamespaceName"]}
{"id": "C36", "title": "Inheritance queries terminate", "statement": "Collecting the methods, class constants or properties of a class or interface terminates for every class graph, including cyclic extends and use relations.", "quantifier": "every class hierarchy, also ill-formed ones", "why_tests_cant": "termination on all (cyclic) graphs cannot be tested; a hang blocks the editor", "anchors": ["analysis/query.go: GetClassMethods, GetInterfaceMethods, GetClassClassConsts, GetClassProps"]}
{"id": "C37", "title": "Inherited members are complete", "statement": "The methods found for a class contain every method declared by the class, by any of its ancestor classes, by their used traits and by their interfaces, each with the class-like it comes from, and nothing else.", "quantifier": "every class hierarchy and every member name", "why_tests_cant": "needs all graphs", "anchors": ["analysis/query.go: GetClassMethods, GetTraitMethods, GetInterfaceMethods"]}
{"id": "C38", "title": "Overriding members win", "statement": "When a class overrides an inherited member, only the overriding declaration is offered; each name is offered once.", "quantifier": "every class hierarchy and access", "why_tests_cant": "needs all orders of declarations along the chain", "anchors": ["analysis/query.go: ReduceFirst, ReduceStatic, ReduceAccess"]}
{"id": "C39", "title": "Visibility is respected in member access", "statement": "Private members of another class are never offered; public ones always are; protected ones are offered exactly inside the class or when accessed through it.", "quantifier": "every access context, member and class", "why_tests_cant": "needs all combinations of context, modifier and static-ness", "anchors": ["analysis/query.go: IsInherited, IsInheritedStatic, ReduceAccess"]}
{"id": "C40", "title": "Variable table stays ordered and finds the latest definition", "statement": "For any sequence of recorded occurrences of variables, looking up a variable at a position finds the latest occurrence that starts at or before the position, or nothing if there is none.", "quantifier": "every sequence of insertions in any order and every queried position", "why_tests_cant": "insertions may come in any order; needs all permutations", "anchors": ["analysis/variable.go: VariableTable.add, get, GetVariables"]}
{"id": "C41", "title": "Unused variable reports", "statement": "A declared variable is reported unused exactly when no use of that name was recorded after it in the same function scope.", "quantifier": "every sequence of declarations and uses", "why_tests_cant": "needs all interleavings of declarations and uses", "anchors": ["analysis/variable.go: VariableTable.add, unusedVariables", "analysis/document.go: UnusedVariables"]}
{"id": "C42", "title": "Message framing round trip", "statement": "Every non-empty message written to a header stream is read back byte-identical by the reader on the other side, for any sequence of messages, with nothing left over.", "quantifier": "every finite sequence of non-empty messages", "why_tests_cant": "message contents may contain header-like text; needs all byte strings and sequences", "anchors": ["internal/jsonrpc2/stream.go: headerStream.Read, headerStream.Write"]}
{"id": "C43", "title": "Reader rejects malformed frames without consuming others' bytes as a message", "statement": "A frame with a missing, zero, negative, non-numeric or oversized Content-Length or with a header line without colon is reported as an error and never delivered as a message.", "quantifier": "every byte stream", "why_tests_cant": "needs all byte streams", "anchors": ["internal/jsonrpc2/stream.go: headerStream.Read"]}
{"id": "C44", "title": "Exactly one response per request", "statement": "Every call received on a connection is answered exactly once, with the same id, whether the handler replies, forgets to reply or replies repeatedly; a notification is never answered.", "quantifier": "every sequence of incoming requests, every handler behaviour and every schedule of the request goroutines", "why_tests_cant": "all interleavings of handler goroutines", "anchors": ["internal/jsonrpc2/jsonrpc2.go: Conn.Run, Request.Reply, Request.Parallel", "internal/jsonrpc2/handler.go: defaultHandler.Deliver"]}
{"id": "C45", "title": "Requests start in order, one at a time", "statement": "Handlers of incoming requests start in the order of arrival, and a handler starts only after every earlier handler has replied, returned or declared itself parallel.", "quantifier": "every message sequence and every schedule", "why_tests_cant": "all interleavings", "anchors": ["internal/jsonrpc2/jsonrpc2.go: Conn.Run (nextRequest), Request.Parallel"]}
{"id": "C46", "title": "Responses reach the caller that asked", "statement": "A response received for an outstanding call is delivered to exactly that call; calls have distinct ids; and the connection keeps reading messages whatever responses the peer sends.", "quantifier": "every interleaving of outgoing calls, incoming responses (also unknown or duplicate ids) and cancellations", "why_tests_cant": "all schedules, including races between cancellation and response", "anchors": ["internal/jsonrpc2/jsonrpc2.go: Conn.Call, Conn.Run"]}
{"id": "C47", "title": "Server life cycle never deadlocks", "statement": "After any sequence of initialize, initialized and shutdown requests the server still answers the next such request.", "quantifier": "every sequence of life-cycle requests", "why_tests_cant": "needs all request sequences, including repeated initialisation", "anchors": ["internal/lsp/general.go: initialize, initialized, shutdown"]}
{"id": "C48", "title": "A document is served by the workspace folder that contains it", "statement": "Requests about a file are answered from the index of a workspace folder that contains the file, and a file outside all folders is not attributed to any.", "quantifier": "every list of workspace folder URIs and every file URI", "why_tests_cant": "fails only when one folder name is a textual prefix of another", "anchors": ["internal/lsp/workspaceStore.go: getStore, removeView, removeStore"]}
{"id": "C49", "title": "Active parameter in signature help", "statement": "While the cursor is inside an argument list, the highlighted parameter index is the number of argument separators before the cursor.", "quantifier": "every argument list layout and cursor position in it", "why_tests_cant": "needs all positions and layouts, including the positions next to a comma", "anchors": ["internal/lsp/signature.go: signatureHelp", "analysis/argumentList.go: newArgumentList"]}
{"id": "C50", "title": "Completion items are ranked by score", "statement": "Member completion lists are ordered by ascending score and keep the original order among equal scores.", "quantifier": "every list of scored items", "why_tests_cant": "a comparator that reads stale positions is right on already sorted input", "anchors": ["internal/lsp/completion.go: memberAccessCompletion, scopedAccessCompletion"]}
{"id": "C51", "title": "Document outline shows every declaration once, nested by containment", "statement": "The document-symbol tree contains exactly the declarations of the document, each once, in document order, with the members below their nearest enclosing declaration.", "quantifier": "every symbol tree", "why_tests_cant": "depth and branching are unbounded", "anchors": ["internal/lsp/symbol.go: toDocumentSymbolRecursive, documentSymbol"]}
{"id": "C52", "title": "Innermost symbol and class at a position", "statement": "The class scope found for a position is the declaration enclosing that position that starts last, or none if none encloses it.", "quantifier": "every document and position", "why_tests_cant": "needs all nestings", "anchors": ["analysis/document.go: ClassAt, getClassAtPos, ImportTableAtPos, GetVariableTableAt"]}
{"id": "C53", "title": "Tree traversal visits every node once, parents first", "statement": "A full syntax tree traversal visits every node exactly once in document order, hands each visit the chain of its ancestors, and skips exactly the subtrees the visitor declines.", "quantifier": "every tree and every visitor", "why_tests_cant": "depth and shape unbounded", "anchors": ["util/traverser.go: Traverser.Traverse"]}
{"id": "C54", "title": "Auto-import text", "statement": "Accepting a completion of a symbol from another namespace inserts exactly one use statement that makes the inserted short name resolve to that symbol.", "quantifier": "every symbol name, alias and import table", "why_tests_cant": "needs all names and tables", "anchors": ["analysis/insertUse.go: GetUseEdit", "analysis/importTable.go: ResolveToQualified"]}
{"id": "C55", "title": "Truncated index data never decodes silently", "statement": "If an encoded sequence of values is cut short anywhere, reading the sequence back fails instead of yielding values.", "quantifier": "every encoded sequence of values and every proper prefix of its bytes", "why_tests_cant": "the number of cut points and value sequences is unbounded", "anchors": ["analysis/storage/encoding.go: Decoder.Read*"]}
{"id": "C56", "title": "Memory and disk databases are interchangeable", "statement": "The same history of operations leaves the in-memory and the on-disk database with the same entries.", "quantifier": "every finite history of operations, including batch callbacks that write directly to the database", "why_tests_cant": "the two implementations commit batches differently, which shows only for particular nestings", "anchors": ["analysis/storage/memory.go: memory.WriteBatch", "analysis/storage/goleveldb.go: LevelDB.WriteBatch", "analysis/store.go: FinishIndexing"]}
{"id": "C57", "title": "Every word of a name is searchable", "statement": "Each camel-case or underscore-separated word of an identifier is among the words under which completion indexes the identifier.", "quantifier": "every identifier", "why_tests_cant": "the number of word layouts is unbounded", "anchors": ["analysis/wordtokeniser/tokeniser.go: Tokenise, casing, removeDup", "analysis/completionIndex.go: createCompletionEntries"]}
{"id": "C58", "title": "Indexing never fails", "statement": "Indexing, deleting, clearing and restarting, in any order and for any documents, always runs to the end; no document content makes the server crash.", "quantifier": "every history of index operations and every document content", "why_tests_cant": "histories and contents are unbounded and a panic hides in particular byte sequences", "anchors": ["analysis/store.go: SyncDocument, DeleteDocument, NewStore, CompareAndIndexDocument", "analysis/completionIndex.go: createCompletionEntries", "analysis/wordtokeniser/casing.go"]}
{"id": "C59", "title": "Deleting a folder removes exactly the files below it", "statement": "When a folder is deleted, the symbols of the files below it are no longer found and the symbols of all other files still are.", "quantifier": "every index history, folder and query", "why_tests_cant": "depends on the URIs of all other files", "anchors": ["analysis/store.go: DeleteFolder", "internal/lsp/workspaceStore.go: removeDocument"]}
{"id": "C60", "title": "Unused imports are exactly those no name is resolved through", "statement": "The imports reported as unused are exactly the use declarations, not replaced by a later one of the same name, through which no later name of the namespace block is resolved.", "quantifier": "every sequence of use declarations and references in a namespace block", "why_tests_cant": "needs all interleavings of imports and references of the three kinds", "anchors": ["analysis/importTable.go: useClass, useFunctionOrClass, useConstOrClass, unusedImportItems", "analysis/diagnostic.go: UnusedDiagnostics"]}
{"id": "C61", "title": "Reported positions are the editor's positions", "statement": "Every position the server reports for an offset of a document is the line and UTF-16 column an editor has for that offset.", "quantifier": "every document text and every offset in it", "why_tests_cant": "character widths and line layouts are unbounded", "anchors": ["analysis/document.go: positionAt, nodeRange, lineAt"]}
{"id": "C62", "title": "The token at an offset is the one the cursor is in", "statement": "The token found at an offset of a document is the one the offset lies in, or directly behind when it lies in none before it, together with exactly the phrases around it.", "quantifier": "every syntax tree and every offset", "why_tests_cant": "trees are unbounded and the descent skips subtrees by their extent", "anchors": ["analysis/document.go: NodeSpineAt", "util/traverser.go: Traverse, realTraverse, NodeStack"]}
{"id": "C63", "title": "The symbol and the call under the cursor are the innermost ones", "statement": "The symbol used for hover and go to definition is the last symbol in document order that the cursor is in or directly behind; the argument list used for signature help is the last that contains the cursor; the expression before a position is the last that starts at or before it.", "quantifier": "every document and every position", "why_tests_cant": "symbol trees and positions are unbounded and the search cuts subtrees and stops early", "anchors": ["analysis/document.go: HasTypesAtPos, hasTypesBeforePos, ArgumentListAndFunctionCallAt", "analysis/symbol.go: TraverseDocument"]}
{"id": "C64", "title": "Completion proposes what matches and says when it is cut", "statement": "Completing a name proposes only current declarations of a kind that fits the place and that match the typed word; when the list is not marked incomplete every matching declaration of the workspace is in it.", "quantifier": "every indexing history, place of completion and typed word", "why_tests_cant": "the mark and the list come from several limited searches in a row; small fixtures never reach the limit", "anchors": ["internal/lsp/completion.go: nameCompletion, classCompletion, typeCompletion, interfaceCompletion, traitCompletion", "internal/lsp/server.go: baseSearchOptions"]}
{"id": "C65", "title": "Workspace symbol search is exact below the limit", "statement": "Searching the workspace for symbols returns, over all folders, entries of current declarations matching the query, with their name, place and class; below the limit none is missing; an empty query returns nothing.", "quantifier": "every list of folders, every indexing history of each, every query", "why_tests_cant": "the limit is shared between nine searches and all folders", "anchors": ["internal/lsp/symbol.go: workspaceSymbol"]}
{"id": "C66", "title": "Accepting a namespace completes the typed name", "statement": "Replacing the segment being typed by the text of a proposed namespace gives the name of this namespace.", "quantifier": "every namespace and every typed prefix", "why_tests_cant": "leading backslashes, the segment boundary and letter case interact", "anchors": ["internal/lsp/symbolConverter.go: namespaceDiff, normaliseNamespaceName", "internal/lsp/completion.go: nameCompletion, typeCompletion"]}
{"id": "C67", "title": "Concurrent indexing is as if one file after the other", "statement": "While several files are indexed and deleted at the same time, every look-up answers at every moment as if the operations completed so far had been done one after the other; no interleaving makes an operation fail.", "quantifier": "every interleaving of any number of synchronisations and deletions, and every query", "why_tests_cant": "interleavings of unboundedly many goroutines cannot be enumerated", "anchors": ["analysis/store.go: SyncDocument, saveDocSymbols, forgetAllSymbols, DeleteDocument", "internal/lsp/workspaceStore.go: newCreator, newDeletor, changeDocument"]}
{"id": "C68", "title": "A kill while indexing loses nothing and the index recovers", "statement": "If the server is killed at any moment, it starts again, every declaration of the files as last completely indexed is still found, and once the interrupted files are indexed again nothing else is found.", "quantifier": "every number and moment of kills in every interleaving of index operations, and every query", "why_tests_cant": "the kill can fall between any two writes to the three databases", "anchors": ["analysis/store.go: SyncDocument, saveDocSymbols, forgetAllSymbols, NewStore", "analysis/referenceIndex.go: newReferenceIndex"]}
{"id": "C69", "title": "Analysing a file always finishes without a crash", "statement": "For every file content, and whatever tree the parser makes of it, the analysis of the file finishes and the server goes on running.", "quantifier": "every document and every syntax tree of any depth", "why_tests_cant": "files are unbounded and half-typed code gives trees of any shape; a fixture covers only the shapes someone wrote down", "anchors": ["analysis/document.go: Load", "analysis/symbolBlock.go: scanForChildren, scanNode", "analysis/document.go: NodeRange, GetNodeText", "analysis/namespace.go", "analysis/class.go", "analysis/method.go", "analysis/expression.go"]}
{"id": "C70", "title": "Every symbol found in a file is written there", "statement": "Every symbol the analysis of a file yields stands at a node of the file that declares or uses it, carries the range of this node, and lies inside the symbol that encloses it; no symbol is made up or taken from another place.", "quantifier": "every document, every syntax tree, every symbol at every depth", "why_tests_cant": "the symbols come out of some sixty mutually recursive functions run in the order of the text", "anchors": ["analysis/symbolBlock.go", "analysis/document.go: addSymbol, pushBlock, popBlock", "analysis/class.go", "analysis/function.go", "analysis/expression.go"]}
{"id": "C71", "title": "Every declaration in a file is found once under its full name", "statement": "Each class, interface, trait, function, constant and define a file declares is found exactly once, at its place, in the order of the text, under its name in the namespace it is written in.", "quantifier": "every document and every declaration in it, whatever stands before it", "why_tests_cant": "the namespace, class and import state left behind by earlier statements decides how a later one is read", "anchors": ["analysis/document.go: Load, addSymbol", "analysis/namespace.go", "analysis/class.go", "analysis/interface.go", "analysis/trait.go", "analysis/function.go", "analysis/const.go", "analysis/define.go", "analysis/importTable.go: setNamespace, GetFullyQualified"]}
{"id": "C72", "title": "Members belong to the class they are written in", "statement": "Each method, property and constant written in the body of a class, interface or trait is found inside the symbol of this class, with the class as its scope, its own name, and the visibility and static mark of its modifiers.", "quantifier": "every document, class and member", "why_tests_cant": "the class of a member is taken from a stack that all code before it has pushed to", "anchors": ["analysis/method.go", "analysis/property.go", "analysis/classConst.go", "analysis/document.go: getLastClass, addClass"]}
{"id": "C73", "title": "What a file declares is found by its name in the workspace", "statement": "Once a file has been opened or indexed, each class, interface, trait, function and constant it declares, and each member of its classes, is found by a look-up of its full name (of its class and name), at its place in the file, whatever other files were indexed, changed or deleted before and after.", "quantifier": "every history of the index, file content, declaration and member", "why_tests_cant": "composes the analysis of arbitrary files with arbitrary histories of the index", "anchors": ["analysis/document.go: Load", "analysis/store.go: SyncDocument, writeAllSymbols, GetClasses, GetMethods, GetProperties, GetClassConsts, GetFunctions", "analysis/symbol.go: traverseDocument"]}
{"id": "C74", "title": "What a look-up finds is written in a file", "statement": "Every declaration a look-up answers is written, at the answered place and with the asked name, in the latest indexed content of a file of the workspace.", "quantifier": "every history of the index and every look-up", "why_tests_cant": "a stale or invented answer can come from any earlier content of any file", "anchors": ["analysis/document.go: Load", "analysis/store.go: SyncDocument, writeAllSymbols, GetClasses, GetMethods, GetProperties, GetClassConsts, GetFunctions"]}
{"id": "C75", "title": "Every use of a name in a file is found", "statement": "Each call of a function or method, access of a property, class constant or constant, each class named behind new, instanceof, catch, extends, implements, use (in a class), before :: or as the type of a parameter, and each variable, is found by the analysis of the file, with its name and its place, however deep it stands.", "quantifier": "every document and every use in it, at any depth", "why_tests_cant": "uses nest without bound in statements and expressions, and each construct has its own scanner that can forget a part", "anchors": ["analysis/symbolBlock.go: scanNode", "analysis/expression.go: scanForExpression", "analysis/assignment.go", "analysis/functionCall.go", "analysis/methodAccess.go", "analysis/propertyAccess.go", "analysis/scopedMethodAccess.go", "analysis/classTypeDesignator.go", "analysis/foreach.go", "analysis/try.go", "analysis/typeDeclaration.go"]}
{"id": "C76", "title": "A class named in a file is the class PHP takes the name for", "statement": "Wherever a class is named in a file (new, instanceof, catch, extends, implements, use in a class, in front of ::, the type of a parameter), the class it is recorded under is the one PHP resolves the name to with the namespace and the use declarations in front of it.", "quantifier": "every document, every use of a class in it, every sequence of namespaces and use declarations before it", "why_tests_cant": "the tables are built and changed by everything the analysis reads before the name", "anchors": ["analysis/use.go", "analysis/namespace.go", "analysis/importTable.go: GetClassReferenceFQN", "analysis/classTypeDesignator.go", "analysis/classAccess.go", "analysis/interfaceAccess.go", "analysis/traitAccess.go", "analysis/typeDeclaration.go"]}
{"id": "C77", "title": "Find references returns every use and nothing else", "statement": "Asking for the references of a class, function, method, property or class constant returns the place of every use of it in the current content of every indexed file, whatever was indexed, changed or deleted before; every place returned is a use or the declaration of what was asked for.", "quantifier": "every indexing history, every file content, every use in it at any depth", "why_tests_cant": "composes the analysis of arbitrary files, name resolution and arbitrary histories of the index", "anchors": ["analysis/store.go: writeAllSymbols, SymToRefs, GetReferences", "analysis/referenceIndex.go", "analysis/document.go: ImportTableAtPos", "analysis/importTable.go: FunctionPossibleFQNs, GetClassReferenceFQN"]}
{"id": "C78", "title": "Find references from the cursor asks for the declaration under it", "statement": "With the cursor in the name of a method, property, class constant, class, interface, trait or function where it is declared, find references answers with the references of exactly this declaration, in every indexed file; on a use of a name it answers with the references of what is used there.", "quantifier": "every document, tree, cursor position and indexing history", "why_tests_cant": "composes position conversion, the search for the token under the cursor, name resolution and the index", "anchors": ["internal/lsp/reference.go: references", "analysis/document.go: NodeSpineAt, HasTypesAtPos, ImportTableAtPos", "util/traverser.go: Traverse, NodeStack", "util/parser.go: FirstToken, LastToken"]}
{"id": "C79", "title": "Go to definition leads to what the name under the cursor means", "statement": "With the cursor on the name of a class, interface, trait, function or constant where it is used, go to definition answers with the places of all declarations, in the current content of the indexed files, of what PHP takes the name for, and with nothing else; behind new it answers with the public constructor of the class, or with the class if it has none.", "quantifier": "every document, tree, cursor position and indexing history", "why_tests_cant": "composes the search for the symbol under the cursor, name resolution, the index and the inheritance of constructors", "anchors": ["internal/lsp/definition.go: definition", "analysis/document.go: HasTypesAtPos, ImportTableAtPos", "analysis/importTable.go: GetClassReferenceFQN, GetFunctionReferenceFQN, GetConstReferenceFQN", "analysis/query.go: GetClassConstructor", "util/uri.go: IsURINavigatable"]}
{"id": "C80", "title": "Uses of what is deprecated are marked", "statement": "The name of a class, interface, function or constant is marked as deprecated where it is used if, and only if, what PHP takes the name for is declared as deprecated in the current content of the indexed files; the hint repeats since when and why. Nothing else is marked, and the search never crashes.", "quantifier": "every document, every use in it at any depth, every indexing history", "why_tests_cant": "composes the analysis of arbitrary files, name resolution and arbitrary histories of the index", "anchors": ["analysis/diagnostic.go: DeprecatedDiagnostics, deprecatedDescription", "analysis/symbol.go: TraverseDocument", "analysis/importTable.go: GetFunctionReferenceFQN, GetConstReferenceFQN"]}
{"id": "C81", "title": "Every syntax error is reported once, where it is", "statement": "For every tree the parser returns, one error is reported for each parse error outside of doc comments, in the order of the text, at the place of the tokens that could not be read, saying what was found and what was expected; nothing else is reported.", "quantifier": "every tree of any depth and every text", "why_tests_cant": "needs arbitrary trees with errors at any depth", "anchors": ["analysis/diagnostic.go: GetParserDiagnostics, parserErrorToDiagnostic", "analysis/document.go: errorRange, positionAt", "util/traverser.go: Traverse"]}
{"id": "C82", "title": "The diagnostics shown are those of the current text", "statement": "Once nothing is under way, the editor shows for every open file the errors of its current text, and the deprecation hints found for it after the last change.", "quantifier": "every interleaving of edits, of the timer and of the searches for hints that go on in the background", "why_tests_cant": "depends on the schedule of timers and goroutines", "anchors": ["internal/lsp/diagnostics.go: provideDiagnostics", "internal/lsp/sync.go: didOpen, didChange", "internal/lsp/workspaceStore.go: changeDocument", "analysis/store.go: DebouncedDeprecation"]}
{"id": "C83", "title": "The types of an expression are those its parts and the index give", "statement": "The types found for a variable, call, member access, loop variable or parenthesised expression are exactly those that follow from the types written down for its parts and from the declarations in the index, however long the chain is; finding them ends, and the answer does not depend on what was asked for before.", "quantifier": "every file of any size, every expression of any depth, every index and every sequence of questions", "why_tests_cant": "expressions refer to each other without bound and remember what was found for them", "anchors": ["analysis/expression.go", "analysis/variable.go", "analysis/methodAccess.go", "analysis/propertyAccess.go", "analysis/scopedMethodAccess.go", "analysis/scopedPropertyAccess.go", "analysis/functionCall.go", "analysis/classAccess.go", "analysis/foreach.go", "analysis/relativeScope.go: resolveMemberTypes"]}
{"id": "C84", "title": "Go to definition on a member leads to the members its receiver has", "statement": "From $x->m, X::m(), X::$p or X::C go to definition leads only to members of that name that one of the types of the receiver has (declared there, inherited, from a trait or from an interface), that may be accessed at that place and that are in a file that can be opened; and it leads to each of them that is not overridden. It ends.", "quantifier": "every indexing history, every hierarchy of classes, every list of receiver types, whatever was asked before in the request", "why_tests_cant": "hierarchies are unbounded, and the collections share caches and maps of visited names between types and calls", "anchors": ["internal/lsp/definition.go: definition", "analysis/query.go: GetClassMethods, GetInterfaceMethods, GetTraitMethods, GetClassProps, GetClassClassConsts, ReduceAccess, ReduceStatic, MergeMethodWithScope, MergePropWithScope, MergeClassConstWithScope"]}
{"id": "C85", "title": "Completion behind -> and :: proposes the members the receiver has", "statement": "Behind $x-> every proposed item is a method or property, behind X:: a method, property or constant (behind X::$ a property), that one of the types of the receiver has, that may be accessed there and that matches the word typed so far; its label is the name of the member and what is inserted completes the call. The accessible members that match and that no other accessible one overrides are all proposed. The request ends and does not crash the server.", "quantifier": "every indexing history, every hierarchy, every list of receiver types, every word and every fuzzy matcher, whatever was asked before in the request", "why_tests_cant": "hierarchies, names and words are unbounded; collections are cached, filtered and merged", "anchors": ["internal/lsp/completion.go: memberAccessCompletion, scopedAccessCompletion", "analysis/query.go: SearchClassMethods, SearchInterfaceMethods, SearchClassProps, SearchInterfaceProps, SearchClassClassConsts, SearchInterfaceClassConsts", "internal/lsp/symbolConverter.go: methodToCompletionItem, propToCompletionItem, classConstToCompletionItem"]}
{"id": "C86", "title": "Signature help marks the parameter of the argument the cursor is in", "statement": "In the arguments of a call the marked parameter is the one with as many parameters in front of it as there are commas between the opening parenthesis and the cursor, not counting commas inside of an argument; and the parameter names shown in front of the arguments are, for each argument, that of its place.", "quantifier": "every text, every list of arguments of any length and nesting, every position in it", "why_tests_cant": "lists of arguments are unbounded and every position in them counts", "anchors": ["internal/lsp/signature.go: signatureHelp, hasParamToSignatureInformation, parameterHints", "analysis/argumentList.go: newArgumentList, GetRanges, GetArgumentRanges", "analysis/document.go: ArgumentListAndFunctionCallAt"]}
{"id": "C87", "title": "Signature help shows the functions that are called", "statement": "In the arguments of $x->m(...) and X::m(...) the signatures shown are those of methods called m that one of the types of the receiver has and that may be accessed there; in those of new X(...) of public constructors of X; in those of f(...) of the functions PHP takes the name for. Nothing that is called is missing. A signature spells the visibility, static, the name and every parameter with its type and default value in order. The request ends.", "quantifier": "every indexing history, every hierarchy, every list of receiver types, whatever was asked before in the request", "why_tests_cant": "hierarchies and parameter lists are unbounded and collections are cached between types and calls", "anchors": ["internal/lsp/signature.go: signatureHelp, hasParamToSignatureInformation", "analysis/methodAccess.go: ResolveToHasParams", "analysis/scopedMethodAccess.go: ResolveToHasParams", "analysis/classTypeDesignator.go: ResolveToHasParams", "analysis/functionCall.go: ResolveToHasParams", "analysis/method.go: GetNameLabel", "analysis/function.go: GetNameLabel"]}
{"id": "C88", "title": "Hovering over a name shows what it stands for", "statement": "With the cursor on the name of a class, interface, trait, function, constant or member where it is used, the declarations it stands for in the current content of the indexed files are shown, each with its head as PHP code, its description and, for a member, the class-like it is declared in, and nothing else; behind new the public constructor of the class is shown, or the class if it has none; the editor is told the range of the name. The request ends.", "quantifier": "every document, cursor position, indexing history, hierarchy of classes and list of receiver types", "why_tests_cant": "composes the search for the symbol under the cursor, name resolution, the index and inheritance, over unbounded lists of parameters, parents and declarations", "anchors": ["internal/lsp/hover.go: hover", "internal/lsp/symbolConverter.go: classesToHover, formatClasses, formatInterfaces, traitsToHover, functionsToHover, formatConsts, formatDefines, classConstsToHover, methodsToHover, propertiesToHover", "analysis/document.go: HasTypesAtPos, ImportTableAtPos", "analysis/query.go: GetClassConstructor, ReduceAccess, ReduceStatic"]}
{"id": "C89", "title": "Renaming a variable changes its occurrences and nothing else", "statement": "With the cursor on a variable, every edit replaces by the new name a variable of that name in the function, method or closure around the cursor (or in the file if there is none); the edits are those of all occurrences in it. Anywhere else nothing is changed.", "quantifier": "every file, tree, cursor position and new name", "why_tests_cant": "functions nest without bound, and the occurrences come from a scan of arbitrary trees", "anchors": ["internal/lsp/reference.go: rename", "analysis/variable.go: VariableTable.add, GetContextualVariables", "analysis/document.go: GetVariableTableAt, pushVariableTable, pushVariable, Load", "analysis/anonymousFunction.go: analyseUseClause"]}
{"id": "C90", "title": "The server follows the editor and the files", "statement": "Whatever an editor opens, changes, saves and closes, and whatever files are created, changed and deleted: the server has for every open document the text the editor shows, and once it has been told of a change, symbol lookups answer from exactly the texts of the open documents and the files on the disk. No message makes the server fail.", "quantifier": "every sequence of messages and of changes of files, of any length, with any texts and edits", "why_tests_cant": "sequences of messages are unbounded, and what is kept in memory or recorded as indexed after one message decides what the next one does", "anchors": ["internal/lsp/sync.go: didOpen, didChange, didClose, didChangeWatchedFiles", "internal/lsp/workspaceStore.go: newCreator, newDeletor, getStore, removeDocument, changeDocument", "analysis/store.go: GetOrCreateDocument, OpenDocument, CloseDocument, CompareAndIndexDocument, SaveDocOnStore, releaseDocIfNotOpen", "analysis/document.go: NewDocument, Load, CloneForMutate, GetHash"]}
{"id": "C91", "title": "A file has one name", "statement": "Whether a file is found by indexing its folder, opened in the editor or notified as changed, created or deleted, the server calls it by the same URI, the one the editor uses; different files have different names; and the document of that URI is read from that file. No name of a file makes the indexing of its folder stop.", "quantifier": "every absolute path: any number of folders, names of any length with any characters", "why_tests_cant": "names are unbounded sequences of arbitrary bytes, decoded and encoded several times on the way", "anchors": ["util/uri.go: URIToPath, PathToURI, DecodeURIFromQuery", "internal/lsp/workspaceStore.go: newCreator, newDeletor, indexFolder, getStore", "internal/lsp/protocol/fs.go: ReadFile, ConvertToURI", "internal/lsp/sync.go: didChangeWatchedFiles"]}
{"id": "C92", "title": "Completion of a variable offers those of the function around it", "statement": "While a variable is typed, each variable of the innermost function, method or closure around the cursor (or of the file if there is none) that occurs before the cursor and contains the word typed so far is offered, once, and nothing else is.", "quantifier": "every file, tree and cursor position in a variable", "why_tests_cant": "functions nest without bound, the variables come from a scan of arbitrary trees and the typed word from an arbitrary line of text", "anchors": ["internal/lsp/completion.go: completion, variableCompletion", "analysis/document.go: WordAtPos, NodeSpineAt, GetVariableTableAt, HasTypesAtPos", "analysis/variable.go: GetVariables"]}
{"id": "C93", "title": "Completion of a name offers what may stand there", "statement": "While a name is typed, the list offers exactly the current declarations of the workspace that may stand at that place and match what is typed in front of the cursor: in an expression classes, interfaces, constants and functions, behind implements and the extends of an interface interfaces, behind the use of a class traits, behind new and the extends of a class classes, and classes and interfaces where a type is named. No request fails.", "quantifier": "every file, tree, cursor position in a name and every indexing history", "why_tests_cant": "composes the search for the phrases and the symbol at the cursor in arbitrary trees, the word on an arbitrary line and the search in an unbounded index", "anchors": ["internal/lsp/completion.go: completion, nameCompletion, classCompletion, interfaceCompletion, traitCompletion, typeCompletion", "analysis/document.go: WordAtPos, NodeSpineAt, HasTypesAtPos", "util/traverser.go: NodeStack"]}
{"id": "C94", "title": "Hovering over a variable shows its types", "statement": "For every variable of a file the editor shows its name with exactly the types it can have at that place: those written down for it, those of what it was assigned, captured or iterates over, and those of its declaration as a global variable, separated by |, and below them the description of the parameter. The answer always comes and does not depend on what was asked before.", "quantifier": "every file, every chain of expressions the variable stands for, every content of the index and every sequence of earlier requests", "why_tests_cant": "expressions refer to each other in chains of any length, and every object remembers what it was once asked", "anchors": ["internal/lsp/hover.go: hover", "internal/lsp/symbolConverter.go: variableToHover, wrapCode", "analysis/variable.go: Resolve, GetTypes", "analysis/symbolType.go: ToString, IsEmpty"]}
{"id": "C95", "title": "The outline of a file shows what is declared in it", "statement": "Every entry of a file's outline is a declaration written in the file, with its name, kind and place, and is shown under the declarations it is written inside. Each class, interface, trait, function, constant and define on the top level of the file is shown on the top level of the outline, and each method, property and constant of a class under that class.", "quantifier": "every file and syntax tree", "why_tests_cant": "trees nest without bound, and the outline composes the analysis of arbitrary trees with a recursion over the symbols it leaves", "anchors": ["internal/lsp/symbol.go: documentSymbol, toDocumentSymbolRecursive, symbolToProtocolDocumentSymbol", "analysis/document.go: Load", "analysis/class.go", "analysis/symbol.go: BlockSymbol"]}
