-Q theories Verif
theories/Base.v
theories/Utf8Spec.v
theories/ReaderModel.v
theories/Utf8Lemmas.v
theories/Utf16Lemmas.v
theories/ReaderSpec.v
theories/ReaderProofs.v
theories/WriterModel.v
theories/WriterSpec.v
theories/WriterProofs.v
theories/ContainerModel.v
theories/ContainerSpec.v
theories/ContainerProofs.v
theories/ApiModel.v
theories/ApiSpec.v
theories/ApiProofs.v
theories/Types.v
theories/DocModel.v
theories/DocSpec.v
theories/DocProofs.v
theories/CharSpec.v
theories/CharModel.v
theories/CharProofs.v
theories/ParserModel.v
theories/TreeSpec.v
theories/GrammarSpec.v
theories/ParserSpec.v
theories/EventAcc.v
theories/ParserInv.v
theories/ParserProofs.v
theories/ParserSound.v
theories/ParserComplete.v
theories/ParserDocs.v
theories/ParserFinal.v
theories/GrammarProofs.v
theories/LoaderModel.v
theories/LoaderSpec.v
theories/LoaderProofs.v
theories/LoaderFinal.v
theories/DumperModel.v
theories/DumperSpec.v
theories/DumperProofs.v
theories/DumperFinal.v
theories/CursorModel.v
theories/ScanModel.v
theories/ScannerModel.v
theories/CursorProofs.v
theories/ScanProofs.v
theories/ScanQuoted.v
theories/ScannerSpec.v
theories/ScannerInv.v
theories/ScannerFetch.v
theories/ScannerBranch.v
theories/ScannerBlock.v
theories/ScannerLoop.v
theories/ScannerFinal.v
theories/PlanFree.v
theories/RequiredSpec.v
theories/RequiredLine.v
theories/RequiredKey.v
theories/RequiredLoop.v
theories/LineSpec.v
theories/LineCur.v
theories/LineScan.v
theories/ValueRun.v
theories/LineScanner.v
theories/FullRun.v
theories/QuotedRun.v
theories/PlainRun.v
theories/BlockRun.v
theories/EagerScan.v
theories/PenModel.v
theories/EmitModel.v
theories/EmitSpec.v
theories/EmitInv.v
theories/EmitStep.v
theories/EmitLoop.v
theories/EmitSettings.v
theories/PenOut.v
theories/EmitOut.v
theories/EmitIOModel.v
theories/EmitWrite.v
theories/PenText.v
theories/EscapeRun.v
theories/RoundSpec.v
theories/LexSpec.v
theories/GapExact.v
theories/QuotedExact.v
theories/LexUnique.v
theories/PlainExact.v
theories/BlockExact.v
theories/TagLex.v
theories/Props_Lex.v
theories/TagRun.v
theories/DoubleTrip.v
theories/SingleTrip.v
theories/PlainTrip.v
theories/BlockTrip.v
theories/TagTrip.v
theories/FoldExact.v
theories/TagExact.v
theories/ScanStep.v
theories/EagerInv.v
theories/TextGrammar.v
theories/ReadLeaf.v
theories/AgreeSpec.v
theories/ReadFlow.v
theories/ReadBlock.v
theories/EmitRun.v
theories/EmitPen.v
theories/EmitLeaf.v
theories/EmitFlow.v
theories/EmitBlock.v
theories/DocText.v
theories/DocRead.v
theories/DocEmit.v
theories/TripSpec.v
theories/DocTrip.v
theories/LoadSpec.v
theories/LoadTrip.v
theories/MarkMap.v
theories/LineLoadSpec.v
theories/LineLoad.v
theories/KeySpec.v
theories/KeyText.v
theories/Props_Reader.v
theories/Props_Writer.v
theories/Props_Api.v
theories/Props_Parser.v
theories/Props_Loader.v
theories/Props_Dumper.v
theories/Props_Scanner.v
theories/Props_Emitter.v
theories/Props_Output.v
theories/Props_RoundTrip.v
theories/Props_Trip.v
theories/Props_Load.v
theories/Props_Key.v
theories/Props_Lines.v
theories/HeapModel.v
theories/HeapSpec.v
theories/HeapLemmas.v
theories/HeapEvents.v
theories/HeapDocs.v
theories/Props_Heap.v
theories/HeapLoaderModel.v
theories/HeapLoader.v
theories/HeapLoad.v
theories/HeapTokenModel.v
theories/HeapTokenSpec.v
theories/HeapParserModel.v
theories/HeapParserSpec.v
theories/HeapScanProg.v
theories/ScanRest.v
theories/HeapScan.v
theories/HeapParser.v
theories/HeapParse.v
theories/HeapParse2.v
theories/HeapParse3.v
theories/HeapParse4.v
theories/HeapClient.v
theories/HeapFinal.v
theories/Props_HeapParser.v
theories/HeapEmitModel.v
theories/HeapEmitSpec.v
theories/HeapEmit.v
theories/HeapDump.v
theories/HeapDumps.v
theories/HeapWorld.v
theories/HeapWorlds.v
theories/Props_HeapEmit.v
theories/HeapLexModel.v
theories/HeapLex.v
theories/HeapLexRun.v
theories/HeapLexScalar.v
theories/HeapScanModel.v
theories/HeapScanSpec.v
theories/HeapScanSim.v
theories/HeapScanFinal.v
theories/Props_HeapScan.v
theories/SplitSpec.v
theories/SplitCur.v
theories/SplitScan.v
theories/SplitScanner.v
theories/SplitDoc.v
theories/SplitRun.v
theories/SplitParse.v
theories/SplitFlow.v
theories/SplitEvents.v
theories/SplitLoad.v
theories/Props_Split.v
theories/LexemeSpec.v
theories/Lexemes.v
theories/LexemeRun.v
theories/LexemeLoop.v
theories/LexemeUnique.v
theories/NestSpec.v
theories/Nest.v
theories/NestEvents.v
theories/Props_Lexemes.v
theories/Props_Nest.v
theories/Props_NestEvents.v
theories/CutSpec.v
theories/CutReader.v
theories/Prefix.v
theories/PrefixEnd.v
theories/PrefixEvents.v
theories/PrefixOpen.v
theories/Cut.v
theories/Props_Cut.v
theories/SourceSpec.v
theories/Source.v
theories/Props_Source.v
theories/EventMarksSpec.v
theories/EventMarks.v
theories/Props_EventMarks.v
theories/SpeltSpec.v
theories/SpeltEnds.v
theories/Spelt.v
theories/Props_Spelt.v
theories/ExtentSpec.v
theories/Extent.v
theories/Props_Extent.v
theories/MarkLoaderModel.v
theories/NodeMarksSpec.v
theories/NodeMarks.v
theories/Props_NodeMarks.v
theories/FaultSpec.v
theories/Fault.v
theories/Props_Fault.v
theories/BlameSpec.v
theories/Blame.v
theories/Props_Blame.v
theories/StringOutSpec.v
theories/StringOut.v
theories/Props_StringOut.v
