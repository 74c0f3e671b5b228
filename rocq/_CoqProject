-Q theories Verif
theories/Analyse/AnalyseModel.v
theories/Analyse/AnalyseProofs.v
theories/Analyse/AnalyseSpec.v
theories/Analyse/DeclareProofs.v
theories/Analyse/DeclareSpec.v
theories/Analyse/Examples.v
theories/Analyse/LeafProofs.v
theories/Analyse/RefModel.v
theories/Analyse/ResolveProofs.v
theories/Analyse/ResolveSpec.v
theories/Analyse/SpecProofs.v
theories/Analyse/SyntaxModel.v
theories/Analyse/UseProofs.v
theories/Analyse/UseSpec.v
theories/Base/Bytes.v
theories/Base/BytesProofs.v
theories/Base/Decimal.v
theories/Base/DecimalProofs.v
theories/Base/Protocol.v
theories/Base/SortSearch.v
theories/Base/Utf8.v
theories/Base/Utf8Proofs.v
theories/Claims/Analyse.v
theories/Claims/Called.v
theories/Claims/CalledNamespace.v
theories/Claims/Codec.v
theories/Claims/Completion.v
theories/Claims/Concurrency.v
theories/Claims/Cursor.v
theories/Claims/Definition.v
theories/Claims/Diagnostics.v
theories/Claims/Expressions.v
theories/Claims/Hover.v
theories/Claims/HoverMembers.v
theories/Claims/Ide.v
theories/Claims/Imports.v
theories/Claims/MemberCompletion.v
theories/Claims/Members.v
theories/Claims/NameCompletion.v
theories/Claims/Namespaces.v
theories/Claims/Outline.v
theories/Claims/Positions.v
theories/Claims/Publish.v
theories/Claims/Queries.v
theories/Claims/References.v
theories/Claims/Rename.v
theories/Claims/Resolve.v
theories/Claims/Rpc.v
theories/Claims/Search.v
theories/Claims/Session.v
theories/Claims/Signature.v
theories/Claims/Storage.v
theories/Claims/Store.v
theories/Claims/Text.v
theories/Claims/Types.v
theories/Claims/Uri.v
theories/Claims/Uses.v
theories/Claims/VarCompletion.v
theories/Claims/VariableHover.v
theories/Claims/Whole.v
theories/Claims/Words.v
theories/Claims/Workspace.v
theories/Codec/CodecModel.v
theories/Codec/CodecProofs.v
theories/Codec/CodecSpec.v
theories/Codec/SymbolCodecModel.v
theories/Codec/SymbolCodecProofs.v
theories/Codec/SymbolCodecSpec.v
theories/Completion/CompletionModel.v
theories/Completion/CompletionProofs.v
theories/Completion/CompletionSpec.v
theories/Completion/NameCompletionModel.v
theories/Completion/NameCompletionProofs.v
theories/Completion/NameCompletionSpec.v
theories/Completion/SortModel.v
theories/Completion/SortProofs.v
theories/Completion/VarCompletionModel.v
theories/Completion/VarCompletionProofs.v
theories/Completion/VarCompletionSpec.v
theories/Expr/ExprModel.v
theories/Expr/ExprProofs.v
theories/Expr/ExprSpec.v
theories/Expr/ExprStoreModel.v
theories/Hover/HoverModel.v
theories/Hover/HoverProofs.v
theories/Hover/HoverSpec.v
theories/Hover/VariableHoverModel.v
theories/Hover/VariableHoverSpec.v
theories/Ide/ArgumentModel.v
theories/Ide/ArgumentSpec.v
theories/Ide/EventProofs.v
theories/Ide/FindProofs.v
theories/Ide/PublishModel.v
theories/Ide/PublishProofs.v
theories/Ide/PublishSpec.v
theories/Ide/TreeModel.v
theories/Ide/TreeProofs.v
theories/Ide/TreeSpec.v
theories/Ide/UnusedProofs.v
theories/Ide/VariableModel.v
theories/Ide/VariableProofs.v
theories/Ide/VariableSpec.v
theories/Members/MemberCompletionModel.v
theories/Members/MemberHistory.v
theories/Members/MemberModel.v
theories/Members/MemberProofs.v
theories/Members/MemberSpec.v
theories/Members/SignatureModel.v
theories/Members/SignatureProofs.v
theories/Query/QueryClaimProofs.v
theories/Query/QueryHistory.v
theories/Query/QueryHistorySpec.v
theories/Query/QueryMembers.v
theories/Query/QueryModel.v
theories/Query/QueryProofs.v
theories/Query/QuerySound.v
theories/Query/QuerySpec.v
theories/Query/QueryStoreModel.v
theories/Rename/CompleteProofs.v
theories/Rename/ParameterProofs.v
theories/Rename/RecordProofs.v
theories/Rename/RecordSpec.v
theories/Rename/RenameModel.v
theories/Rename/RenameProofs.v
theories/Rename/RenameSpec.v
theories/Rename/TraceProofs.v
theories/Rename/TraceSpec.v
theories/Rpc/CallModel.v
theories/Rpc/CallProofs.v
theories/Rpc/CallSpec.v
theories/Rpc/ConnModel.v
theories/Rpc/ConnProofs.v
theories/Rpc/ConnSpec.v
theories/Rpc/StreamModel.v
theories/Rpc/StreamProofs.v
theories/Rpc/StreamSpec.v
theories/Server/WorkspaceModel.v
theories/Server/WorkspaceSpec.v
theories/Session/SessionModel.v
theories/Session/SessionProofs.v
theories/Session/SessionSpec.v
theories/Storage/KvModel.v
theories/Storage/KvProofs.v
theories/Storage/KvSpec.v
theories/Store/ClaimProofs.v
theories/Store/Examples.v
theories/Store/FilterModel.v
theories/Store/IndexProofs.v
theories/Store/LookupKinds.v
theories/Store/LookupProofs.v
theories/Store/NamespaceProofs.v
theories/Store/RefProofs.v
theories/Store/RefTheorems.v
theories/Store/SearchModel.v
theories/Store/SearchProofs.v
theories/Store/SearchSpec.v
theories/Store/SearchTheorems.v
theories/Store/StoreModel.v
theories/Store/StoreProofs.v
theories/Store/StoreSpec.v
theories/Store/StoreTheorems.v
theories/Store/WorldExamples.v
theories/Store/WorldModel.v
theories/Store/WorldProofs.v
theories/Store/WorldTheorems.v
theories/Symbols/KeysModel.v
theories/Symbols/Symbols.v
theories/Text/PositionModel.v
theories/Text/PositionSpec.v
theories/Text/TextModel.v
theories/Text/TextProofs.v
theories/Text/TextSpec.v
theories/Types/ImportModel.v
theories/Types/ImportProofs.v
theories/Types/ImportSpec.v
theories/Types/TypesModel.v
theories/Types/TypesProofs.v
theories/Types/TypesSpec.v
theories/Uri/UriModel.v
theories/Uri/UriProofs.v
theories/Uri/UriSpec.v
theories/Whole/CursorModel.v
theories/Whole/CursorProofs.v
theories/Whole/CursorSpec.v
theories/Whole/DefinitionModel.v
theories/Whole/DefinitionProofs.v
theories/Whole/DefinitionSpec.v
theories/Whole/DiagnosticModel.v
theories/Whole/DiagnosticProofs.v
theories/Whole/DiagnosticSpec.v
theories/Whole/IndexProofs.v
theories/Whole/IndexSpec.v
theories/Whole/OutlineModel.v
theories/Whole/OutlineProofs.v
theories/Whole/OutlineSpec.v
theories/Whole/RefProofs.v
theories/Whole/RefSpec.v
theories/Words/TokeniserModel.v
theories/Words/TokeniserProofs.v
theories/Words/TokeniserSpec.v
