-Q theories Verif
theories/Base.v
theories/BaseProofs.v
theories/Bitset.v
theories/BitsetSpec.v
theories/BitsetProofs.v
theories/AccessProofs.v
theories/CompactProofs.v
theories/ViewProofs.v
theories/PropBitset.v
theories/Words.v
theories/Ast.v
theories/WordsProofs.v
theories/PropWords.v
theories/Nfa.v
theories/Lang.v
theories/BuildProofs.v
theories/ClosureProofs.v
theories/OptSafe.v
theories/OptProofs.v
theories/CompileProofs.v
theories/CompiledProofs.v
theories/Fill.v
theories/Fuzzy.v
theories/FillProofs.v
theories/Matcher.v
theories/WordPhase.v
theories/PhraseProofs.v
theories/MatchProofs.v
theories/Query.v
theories/ReachProofs.v
theories/MoveProofs.v
theories/OptimizeProofs.v
theories/FilterProofs.v
theories/WordRun.v
theories/InitProofs.v
theories/Results.v
theories/Answers.v
theories/PassProofs.v
theories/DfsProofs.v
theories/SizeProofs.v
theories/SearchProofs.v
theories/OutProofs.v
theories/EvalProofs.v
theories/StreamProofs.v
theories/ConvergeProofs.v
theories/RunProofs.v
theories/OrderSpec.v
theories/AnyProofs.v
theories/DeadlineProofs.v
theories/PropQuery.v
theories/PropGiveUp.v
theories/Prepared.v
theories/PreparedProofs.v
theories/Progress.v
theories/ProgressProofs.v
theories/ProgressProofs2.v
theories/PropMatcher.v
theories/PropProgress.v
theories/PropFuzz.v
theories/PropVisible.v
theories/PropNfa.v
theories/Expand.v
theories/ExpandProofs.v
theories/ExpandSpec.v
theories/ExpandProofs2.v
theories/PropExpand.v
theories/Grammar.v
theories/GrammarProofs.v
theories/ShapeProofs.v
theories/Parser.v
theories/ParserSpec.v
theories/ParserProofs.v
theories/PegProofs.v
theories/CommentProofs.v
theories/LinesProofs.v
theories/MacroProofs.v
theories/NameProofs.v
theories/TermProofs.v
theories/LiteralProofs.v
theories/TotalProofs.v
theories/OperatorProofs.v
theories/AnagramProofs.v
theories/DictProofs.v
theories/PragmaProofs.v
theories/TextProofs.v
theories/PropParser.v
theories/Apps.v
theories/AppsSpec.v
theories/AppsProofs.v
theories/SessionProofs.v
theories/PropApps.v
theories/IntervalProofs.v
theories/PruneProofs.v
theories/FlatProofs.v
theories/Flat.v
theories/FlatBuild.v
theories/AltSim.v
theories/AltPrune.v
theories/AltCollapse.v
theories/AltBuild.v
theories/AltShape.v
theories/AltSafe.v
theories/Runs.v
theories/RunsProofs.v
theories/GlueProofs.v
theories/GlueCollapse.v
theories/GluePrune.v
theories/GlueSafe.v
theories/GlueBuild.v
theories/GlueCut.v
theories/RingOpt.v
theories/RingShape.v
theories/RingSafe.v
theories/RingBuild.v
theories/FlatQuery.v
theories/PropFlat.v
theories/TextSpec.v
theories/FlatText.v
theories/PropText.v
theories/Syntax.v
theories/SyntaxProofs.v
theories/SyntaxProofs2.v
theories/SyntaxProofs3.v
theories/SyntaxProofs4.v
theories/SyntaxProofs5.v
theories/SyntaxProofs6.v
theories/SyntaxProofs7.v
theories/SupersetProofs.v
theories/PropSyntax.v
theories/Printable.v
theories/PrintProofs.v
theories/PropPrint.v
theories/PanicProofs.v
theories/PropPanic.v
theories/Expand64.v
theories/Expand64Spec.v
theories/Expand64Proofs.v
theories/PropSums.v
theories/WaitProofs.v
theories/PropDeadline.v
theories/Page.v
theories/Http.v
theories/HttpSpec.v
theories/SpaceProofs.v
theories/HttpProofs.v
theories/PropHttp.v
theories/Json.v
theories/JsonSpec.v
theories/JsonProofs.v
theories/PropJson.v
theories/PageSpec.v
theories/PageProofs.v
theories/PageTextProofs.v
theories/PageServerProofs.v
theories/PropPage.v
theories/Gauge.v
theories/GaugeSpec.v
theories/GaugeProofs.v
theories/PropGauge.v
theories/Script.v
theories/ScriptProofs.v
theories/PropScript.v
theories/EndSpec.v
theories/EndProofs.v
theories/PropEnd.v
theories/Tables.v
theories/TablesProofs.v
theories/PropTables.v
theories/Listgen.v
theories/ListgenSpec.v
theories/ListgenProofs.v
theories/ListgenProofs2.v
theories/ListgenProofs3.v
theories/ListgenProofs4.v
theories/ListgenProofs5.v
theories/PropListgen.v
theories/ExampleProofs.v
theories/ExampleProofs2.v
theories/PropExamples.v
