-Q theories Verif
theories/Base.v
theories/CPAccessor.v
theories/CPAccessorSpec.v
theories/CPAccessorProofs.v
theories/Props_Accessor.v
theories/YamlChar.v
theories/YamlCharSpec.v
theories/YamlCharProofs.v
theories/Token.v
theories/TokenProofs.v
theories/Props_Chars.v
theories/Balance.v
theories/BalanceSpec.v
theories/BalanceProofs.v
theories/Props_Balance.v
theories/Schema.v
theories/SchemaSpec.v
theories/SchemaProofs.v
theories/Props_Schema.v
theories/Ast.v
theories/Builder.v
theories/BuilderSpec.v
theories/BuilderProofs.v
theories/GBuilder.v
theories/GBuilderSpec.v
theories/GBuilderProofs.v
theories/Props_Builder.v
theories/Lexer.v
theories/LexerSpec.v
theories/LexerProofs.v
theories/Props_Lexer.v
theories/Writer.v
theories/Encoder.v
theories/WriterSpec.v
theories/WriterProofs.v
theories/Props_Writer.v
theories/Values.v
theories/AnyBuilder.v
theories/Reader.v
theories/YReader.v
theories/GReader.v
theories/ReadSpec.v
theories/ReaderSpec.v
theories/DocSpec.v
theories/ReaderProofs.v
theories/ReaderSteps.v
theories/ReadProofs.v
theories/AnyProofs.v
theories/YReaderProofs.v
theories/GReaderProofs.v
theories/ReadPlan.v
theories/ReaderCases.v
theories/Props_Reader.v
theories/DocProofs.v
theories/AliasSpec.v
theories/AliasProofs.v
theories/AliasCases.v
theories/RawProofs.v
theories/Props_Alias.v
theories/DenySpec.v
theories/DenyProofs.v
theories/DenyEngines.v
theories/Props_Deny.v
theories/Comparator.v
theories/ComparatorSpec.v
theories/ComparatorProofs.v
theories/Props_Comparator.v
theories/Generator.v
theories/GeneratorSpec.v
theories/GeneratorProofs.v
theories/Props_Generator.v
theories/Parser.v
theories/ParserFlow.v
theories/ParserBlock.v
theories/ParserDocs.v
theories/ParserCases.v
theories/ParserLogic.v
theories/ParserTerm.v
theories/ParserTermFlow.v
theories/ParserTermBlock.v
theories/ParserTermDocs.v
theories/ParserFuel.v
theories/ParserTotal.v
theories/ParserFacts.v
theories/Props_Parser.v
theories/RoundTripSpec.v
theories/TextSpec.v
theories/DirSpec.v
theories/NotedSpec.v
theories/TextFacts.v
theories/ParserTape.v
theories/TapeRules.v
theories/BlockParse1.v
theories/BlockParse2.v
theories/BlockParse3.v
theories/BlockParse4.v
theories/LitParse.v
theories/FlowParse1.v
theories/FlowParse2.v
theories/FlowParse3.v
theories/FoldParse.v
theories/FlowParse4.v
theories/LeafParse.v
theories/BlockParse5.v
theories/BlockColl.v
theories/MarkParse.v
theories/BlockParse6.v
theories/BlockParse7.v
theories/DirParse.v
theories/LexText.v
theories/BlockText.v
theories/FoldText.v
theories/GapText.v
theories/LitText.v
theories/LineText.v
theories/DirText.v
theories/TokenStarts.v
theories/WriterText.v
theories/RoundTripProofs.v
theories/Props_RoundTrip.v
theories/TextProofs.v
theories/Props_Text.v
theories/LiteralProofs.v
theories/Props_Literal.v
theories/FoldedSpec.v
theories/FoldedProofs.v
theories/Props_Folded.v
theories/MarkProofs.v
theories/Props_Marks.v
theories/DirProofs.v
theories/Props_Directives.v
theories/FlowLineSpec.v
theories/FlowLineProofs.v
theories/Props_FlowLines.v
theories/GenCode.v
theories/GenSpec.v
theories/GenProofs.v
theories/GenEngines.v
theories/GenCases.v
theories/Props_Generated.v
theories/CursorSpec.v
theories/CursorAny.v
theories/CursorProofs.v
theories/CursorRun.v
theories/CursorDecode.v
theories/ClientSpec.v
theories/CursorClient.v
theories/CursorCases.v
theories/Props_Cursor.v
theories/GenMarshal.v
theories/MarshalSpec.v
theories/MarshalProofs.v
theories/Props_Marshal.v
theories/MeaningSpec.v
theories/MeaningProofs.v
theories/MeaningReads.v
theories/Props_Meaning.v
theories/UnmarshalProofs.v
theories/Props_Unmarshal.v
theories/Utf8.v
theories/Utf8Spec.v
theories/Utf8Proofs.v
theories/Props_Utf8.v
theories/ParsedSpec.v
theories/Printer.v
theories/PrinterSpec.v
theories/PrinterProofs.v
theories/Props_Printer.v
theories/ParsedProofs.v
theories/ParsedFacts.v
theories/Props_Parsed.v
theories/Command.v
theories/CommandSpec.v
theories/CommandProofs.v
theories/Props_Command.v
theories/RawTextSpec.v
theories/RawTextProofs.v
theories/Props_Raw.v
theories/BinarySpec.v
theories/BinaryProofs.v
theories/Props_Binary.v
theories/TypeNames.v
theories/TypeNamesSpec.v
theories/TypeNamesProofs.v
theories/Props_TypeNames.v
