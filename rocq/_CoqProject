-Q theories Verif
theories/Base.v
theories/Utf8.v
theories/Utf8Facts.v
theories/EditModel.v
theories/EditSpec.v
theories/EditProofs.v
theories/EditProps.v
theories/RopeModel.v
theories/RopeSpec.v
theories/RopeProofs.v
theories/RopeProps.v
theories/SimdModel.v
theories/ScanSpec.v
theories/SimdProofs.v
theories/SimdProps.v
theories/CursorModel.v
theories/CursorSpec.v
theories/CursorProofs.v
theories/SearchProofs.v
theories/CursorProps.v
theories/BufferModel.v
theories/BufferSpec.v
theories/BufferProofs.v
theories/BufferProps.v
theories/LexModel.v
theories/LexSpec.v
theories/LexProofs.v
theories/LexLoopProofs.v
theories/LexProps.v
theories/TreeModel.v
theories/TreeSpec.v
theories/TreeProofs.v
theories/TreeProps.v
theories/ParserModel.v
theories/ParserSpec.v
theories/ParserProofs.v
theories/PrattSpec.v
theories/PrattProofs.v
theories/ParserProps.v
theories/ArenaModel.v
theories/ArenaSpec.v
theories/ArenaProofs.v
theories/ArenaProps.v
theories/LineMapModel.v
theories/LineMapSpec.v
theories/LineMapProofs.v
theories/LineMapProps.v
theories/VfsModel.v
theories/VfsSpec.v
theories/VfsProofs.v
theories/VfsProps.v
theories/PrettyModel.v
theories/PrettySpec.v
theories/PrettyProofs.v
theories/PrettyProps.v
theories/FormatModel.v
theories/FormatSpec.v
theories/FormatProofs.v
theories/FormatProps.v
theories/SymModel.v
theories/SymSpec.v
theories/SymProofs.v
theories/SymProps.v
theories/JsonSpec.v
theories/HiModel.v
theories/HiSpec.v
theories/HiProofs.v
theories/HiProps.v
theories/DiagModel.v
theories/DiagSpec.v
theories/DiagProofs.v
theories/DiagProps.v
theories/ReplModel.v
theories/ReplSpec.v
theories/ReplProofs.v
theories/ReplProps.v
theories/McpModel.v
theories/McpSpec.v
theories/McpProps.v
theories/GraphModel.v
theories/GraphSpec.v
theories/GraphProofs.v
theories/GraphProps.v
theories/GeoModel.v
theories/GeoSpec.v
theories/GeoProofs.v
theories/GeoProps.v
theories/SvgModel.v
theories/SvgSpec.v
theories/SvgProps.v
theories/JsonModel.v
theories/JsonLangSpec.v
theories/JsonLexProofs.v
theories/JsonParseProofs.v
theories/JsonTextProofs.v
theories/JsonDocProofs.v
theories/JsonProps.v
theories/JsonAstModel.v
theories/JsonAstSpec.v
theories/JsonAstProofs.v
theories/JsonAstBuildProofs.v
theories/JsonAstProps.v
theories/SerdeModel.v
theories/SerdeSpec.v
theories/SerdeProofs.v
theories/SerdeProps.v
theories/CommentModel.v
theories/CommentSpec.v
theories/CommentProofs.v
theories/CommentProps.v
theories/LangModel.v
theories/LangSpec.v
theories/LangLexProofs.v
theories/LangParseProofs.v
theories/CsvModel.v
theories/CsvSpec.v
theories/CsvProofs.v
theories/CsvTableProofs.v
theories/CsvProps.v
theories/FlatProofs.v
theories/IniModel.v
theories/IniSpec.v
theories/IniProofs.v
theories/IniProps.v
theories/TestModel.v
theories/TestSpec.v
theories/TestProofs.v
theories/TestProps.v
theories/GramModel.v
theories/GramSpec.v
theories/GramProofs.v
theories/GramProps.v
theories/ExprModel.v
theories/ExprSpec.v
theories/ExprProofs.v
theories/ExprProps.v
theories/MacroModel.v
theories/MacroSpec.v
theories/MacroProps.v
theories/ErrModel.v
theories/ErrProps.v
theories/SharedProps.v
theories/FormatIdem.v
theories/JsonReparse.v
theories/TomlModel.v
theories/TomlSpec.v
theories/TomlProofs.v
theories/TomlProps.v
theories/DocMacroModel.v
theories/DocMacroProps.v
theories/PyModel.v
theories/PySpec.v
theories/PyProofs.v
theories/PyLexProofs.v
theories/PyLayProofs.v
theories/PyTreeProofs.v
theories/PyProps.v
theories/RuleMacroModel.v
theories/RuleMacroProps.v
theories/ChunkModel.v
theories/ChunkProps.v
theories/XmlModel.v
theories/XmlSpec.v
theories/XmlLexProofs.v
theories/XmlProofs.v
theories/XmlBuildProofs.v
theories/XmlProps.v
theories/XmlSerdeModel.v
theories/XmlSerdeSpec.v
theories/XmlSerdeProofs.v
theories/XmlSerdeProps.v
theories/VonModel.v
theories/VonSpec.v
theories/VonLexProofs.v
theories/VonProofs.v
theories/VonGrammarProofs.v
theories/VonBuildProofs.v
theories/VonTextProofs.v
theories/VonProps.v
theories/RegexModel.v
theories/RegexSpec.v
theories/RegexLexProofs.v
theories/RegexProofs.v
theories/RegexTreeProofs.v
theories/RegexProps.v
theories/LuaModel.v
theories/LuaSpec.v
theories/LuaLexProofs.v
theories/LuaProofs.v
theories/LuaProps.v
theories/LuaAstModel.v
theories/LuaAstSpec.v
theories/LuaAstProofs.v
theories/LuaAstProps.v
theories/WatchModel.v
theories/WatchSpec.v
theories/WatchProofs.v
theories/WatchProps.v
theories/LuaPrintSpec.v
theories/LuaPrintProofs.v
theories/LuaPrintProps.v
theories/SqlModel.v
theories/SqlSpec.v
theories/SqlLexProofs.v
theories/SqlProofs.v
theories/SqlTreeProofs.v
theories/SqlProps.v
theories/RingModel.v
theories/RingSpec.v
theories/RingProofs.v
theories/ForceProofs.v
theories/RingProps.v
theories/SideModel.v
theories/SideSpec.v
theories/SideProofs.v
theories/SideProps.v
theories/BareModel.v
theories/BareSpec.v
theories/BareProofs.v
theories/BareProps.v
theories/SchModel.v
theories/SchSpec.v
theories/SchProofs.v
theories/SchProps.v
theories/FolderSpec.v
theories/FolderProps.v
theories/OffSpec.v
theories/OffProofs.v
theories/OffProps.v
theories/DiskProps.v
theories/QuietProps.v
theories/DrawModel.v
theories/DrawSpec.v
theories/DrawProofs.v
theories/DrawProps.v
theories/JsonCutProofs.v
theories/JsonIncSpec.v
theories/JsonIncProofs.v
theories/JsonIncProps.v
theories/HtmlDiagModel.v
theories/HtmlDiagSpec.v
theories/HtmlDiagProofs.v
theories/HtmlDiagProps.v
theories/LlModel.v
theories/LlSpec.v
theories/LlLexProofs.v
theories/LlProofs.v
theories/LlProps.v
theories/LlBuildSpec.v
theories/LlBuildProofs.v
theories/LlBuildProps.v
theories/LlFunProofs.v
theories/LlFunBuild.v
theories/LlModuleProofs.v
theories/LlModuleProps.v
