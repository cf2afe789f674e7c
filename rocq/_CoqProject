-Q theories Verif
theories/Base.v
theories/BaseFacts.v
theories/TextModel.v
theories/EditModel.v
theories/TextSpec.v
theories/TextProofs.v
theories/VsSpec.v
theories/VsProofs.v
theories/PropsText.v
theories/TreeModel.v
theories/SearchModel.v
theories/FileEditModel.v
theories/TreeSpec.v
theories/TreeProofs.v
theories/SearchSpec.v
theories/SearchProofs.v
theories/TraversalProofs.v
theories/FileEditSpec.v
theories/FileEditProofs.v
theories/PropsTree.v
theories/LexModel.v
theories/LexSpec.v
theories/LexProofs.v
theories/PropsLex.v
theories/GrammarModel.v
theories/ParserModel.v
theories/ParserProofs.v
theories/ForestSpec.v
theories/SemSpec.v
theories/RefineProofs.v
theories/ConvertModel.v
theories/ConvertSpec.v
theories/ReshuffleProofs.v
theories/SpanSpec.v
theories/SpanProofs.v
theories/ConvertProofs.v
theories/FileProofs.v
theories/PegSpec.v
theories/PegProofs.v
theories/PegFacts.v
theories/WindowProofs.v
theories/ExampleLang.v
theories/LeafSpec.v
theories/LeafProofs.v
theories/PrattSpec.v
theories/PrattProofs.v
theories/MonoProofs.v
theories/WindowParser.v
theories/PropsParser.v
theories/WellFormed.v
theories/CheckProofs.v
theories/GrammarData.v
theories/PropsPeg.v
theories/PropsCheck.v
theories/ReparseModel.v
theories/ReparseSpec.v
theories/OccurProofs.v
theories/CacheProofs.v
theories/CacheTotal.v
theories/SalvageProofs.v
theories/ReparseProofs.v
theories/ReparseTotal.v
theories/ReparseExample.v
theories/PropsReparse.v
theories/EditorModel.v
theories/EditorSpec.v
theories/EditorProofs.v
theories/PropsEditor.v
theories/IndexModel.v
theories/IndexSpec.v
theories/IndexProofs.v
theories/PropsIndex.v
theories/PropsRace.v
theories/DbModel.v
theories/DbSpec.v
theories/DbProofs.v
theories/PropsDb.v
theories/ScanModel.v
theories/ScanSpec.v
theories/ScanProofs.v
theories/PropsScan.v
theories/FallLang.v
theories/DbTrace.v
theories/AnalysisModel.v
theories/AnalysisSpec.v
theories/ViewProofs.v
theories/AnalysisProofs.v
theories/CollectProofs.v
theories/RunProofs.v
theories/FallCheck.v
theories/MeansFacts.v
theories/AnalysisFacts.v
theories/PropsAnalysis.v
theories/RefModel.v
theories/RefSpec.v
theories/RefProofs.v
theories/PropsRefs.v
theories/FormatModel.v
theories/FormatSpec.v
theories/FormatProofs.v
theories/PropsFormat.v
theories/CodegenModel.v
theories/CodegenSpec.v
theories/CodegenProofs.v
theories/AstGenSpec.v
theories/AstGenProofs.v
theories/PropsCodegen.v
theories/ShipCheck.v
theories/Shipped.v
theories/DeriveSpec.v
theories/DeriveProofs.v
theories/PropsDerive.v
theories/ShapeCheck.v
theories/FallShape.v
theories/CompleteProofs.v
theories/PropsComplete.v
theories/NestCheck.v
theories/FallNest.v
theories/NestProofs.v
theories/PropsNest.v
theories/FallEditModel.v
theories/FallEditSpec.v
theories/FallEditProofs.v
theories/ExtractProofs.v
theories/FallHlSpec.v
theories/FallHlProofs.v
theories/PropsFallEdit.v
theories/AlwaysSpec.v
theories/AlwaysProofs.v
theories/RustEditModel.v
theories/RustLang.v
theories/PropsAlways.v
theories/RustEditSpec.v
theories/RustEditProofs.v
theories/PropsRustEdit.v
theories/DumpModel.v
theories/DumpSpec.v
theories/DumpProofs.v
theories/NameData.v
theories/NameModel.v
theories/NameProofs.v
theories/PropsDump.v
theories/RegexModel.v
theories/RegexSpec.v
theories/LexData.v
theories/RegexProofs.v
theories/RegexLang.v
theories/PropsRegex.v
theories/RelexChars.v
theories/RelexLang.v
theories/PropsRelex.v
theories/InsideProofs.v
theories/FallCached.v
theories/FallMoved.v
theories/FallTokens.v
theories/PropsCached.v
theories/SessionModel.v
theories/SessionSpec.v
theories/SessionProofs.v
theories/PropsSession.v
theories/ClientModel.v
theories/ClientSpec.v
theories/ClientProofs.v
theories/PropsClient.v
theories/HarnessModel.v
theories/HarnessSpec.v
theories/HarnessProofs.v
theories/PropsHarness.v
theories/ToolModel.v
theories/ToolSpec.v
theories/ToolProofs.v
theories/PropsTool.v
theories/AccessorData.v
theories/RuntimeModel.v
theories/RuntimeSpec.v
theories/RuntimeProofs.v
theories/RuntimeCheck.v
theories/OwnsProofs.v
theories/RuntimeShape.v
theories/PropsRuntime.v
theories/PropsAccessors.v
theories/ScreenModel.v
theories/ScreenSpec.v
theories/ScreenProofs.v
theories/PropsScreen.v
theories/FeatureModel.v
theories/FeatureProofs.v
theories/PropsFeature.v
theories/WordModel.v
theories/WordProofs.v
theories/PropsWord.v
theories/RustPluginModel.v
theories/RustPluginSpec.v
theories/RustPluginProofs.v
theories/PropsRustPlugin.v
theories/TickModel.v
theories/TickProofs.v
theories/TickSim.v
theories/WorkProofs.v
theories/PropsWork.v
theories/MetricsModel.v
theories/MetricsSpec.v
theories/MetricsProofs.v
theories/PropsMetrics.v
theories/FallQuotes.v
theories/PropModel.v
theories/PropData.v
theories/PropSpec.v
theories/PropProofs.v
theories/PropTest.v
theories/PropsProp.v
theories/ActionTestModel.v
theories/ActionTestSpec.v
theories/ActionTestProofs.v
theories/PropsActionTest.v
theories/DirectoryModel.v
theories/DirectorySpec.v
theories/DirectoryProofs.v
theories/PropsDirectory.v
theories/TextOpsModel.v
theories/TextOpsSpec.v
theories/TextOpsProofs.v
theories/PropsTextOps.v
theories/DiagTestModel.v
theories/DiagTestSpec.v
theories/DiagTestProofs.v
theories/PropsDiagTest.v
theories/Conform.v
theories/ConformEditor.v
theories/FreshModel.v
theories/FreshSpec.v
theories/FreshProofs.v
theories/PropsFresh.v
theories/ConformCalls.v
theories/SlotSpec.v
theories/SlotProofs.v
theories/PropsSlot.v
theories/ConformReparse.v
