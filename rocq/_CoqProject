-Q theories Verif
theories/AnnotationsModel.v
theories/AnnotationsProofs.v
theories/AnnotationsSpec.v
theories/Base.v
theories/BreaksModel.v
theories/BreaksProofs.v
theories/BreaksSpec.v
theories/CompareModel.v
theories/CompareProofs.v
theories/ConfigIdle.v
theories/ConfigInv.v
theories/ConfigModel.v
theories/ConfigProofs.v
theories/ConfigRun.v
theories/ConfigSpec.v
theories/ConfigStep.v
theories/ConfigTotal.v
theories/CursorBoundary.v
theories/CursorModel.v
theories/CursorProofs.v
theories/DeltaModel.v
theories/DeltaProofs.v
theories/DeltaProofs2.v
theories/DeltaSpec.v
theories/DequeModel.v
theories/DetectModel.v
theories/DiffModel.v
theories/DiffProofs.v
theories/DiffSpec.v
theories/DrawModel.v
theories/DrawProofs.v
theories/DrawSpec.v
theories/EditOpsBack.v
theories/EditOpsLines.v
theories/EditOpsModel.v
theories/EditOpsMore.v
theories/EditOpsProofs.v
theories/EditOpsSpec.v
theories/EditOpsTabs.v
theories/EditOpsUnits.v
theories/EditOpsWords.v
theories/EditorModel.v
theories/EditorProofs.v
theories/EditorSpec.v
theories/EmojiModel.v
theories/EmojiProofs.v
theories/EmojiSpec.v
theories/EmojiTables.v
theories/EngineConc.v
theories/EngineDoc.v
theories/EngineFacts.v
theories/EngineGc.v
theories/EngineGc2.v
theories/EngineHist.v
theories/EngineInv.v
theories/EngineModel.v
theories/EnginePrio.v
theories/EngineSim.v
theories/EngineSpec.v
theories/ExpandProofs.v
theories/FileModel.v
theories/FileProofs.v
theories/FileRope.v
theories/FileRun.v
theories/FileSpec.v
theories/FindModel.v
theories/FindProofs.v
theories/HoverModel.v
theories/HoverProofs.v
theories/HoverSpec.v
theories/IndexSetModel.v
theories/IndexSetProofs.v
theories/LayersModel.v
theories/LayersProofs.v
theories/LayersSpec.v
theories/LineBreakChars.v
theories/LineBreakCodes.v
theories/LineBreakHard.v
theories/LineBreakModel.v
theories/LineBreakProofs.v
theories/LineBreakResume.v
theories/LineBreakRope.v
theories/LineBreakRules.v
theories/LineBreakSpec.v
theories/LineBreakTables.v
theories/LinewrapEdit.v
theories/LinewrapHist.v
theories/LinewrapInv.v
theories/LinewrapLines.v
theories/LinewrapMerged.v
theories/LinewrapModel.v
theories/LinewrapRun.v
theories/LinewrapSpec.v
theories/LinewrapTask.v
theories/LinewrapWork.v
theories/LinewrapWrap.v
theories/ListLib.v
theories/LspModel.v
theories/LspProofs.v
theories/LspSpec.v
theories/LspWireModel.v
theories/LspWireProofs.v
theories/LspWireSpec.v
theories/MergeFacts.v
theories/MergeLattice.v
theories/MergeModel.v
theories/MergePath.v
theories/MergePeers.v
theories/MergeRebase.v
theories/MergeSpec.v
theories/MergeSys.v
theories/MetricProofs.v
theories/MovementModel.v
theories/MovementProofs.v
theories/MovementSpec.v
theories/MultisetModel.v
theories/MultisetProofs.v
theories/MultisetSpec.v
theories/NextSpec.v
theories/PluginCacheModel.v
theories/PluginCacheProofs.v
theories/PluginCacheSpec.v
theories/PropertiesAnnotations.v
theories/PropertiesBreaks.v
theories/PropertiesCompare.v
theories/PropertiesConfig.v
theories/PropertiesDelta.v
theories/PropertiesDetect.v
theories/PropertiesDiff.v
theories/PropertiesDraw.v
theories/PropertiesEditOps.v
theories/PropertiesEditor.v
theories/PropertiesEmoji.v
theories/PropertiesEngine.v
theories/PropertiesFile.v
theories/PropertiesFind.v
theories/PropertiesHover.v
theories/PropertiesIndexSet.v
theories/PropertiesLayers.v
theories/PropertiesLineBreak.v
theories/PropertiesLinewrap.v
theories/PropertiesLsp.v
theories/PropertiesLspWire.v
theories/PropertiesMerge.v
theories/PropertiesMovement.v
theories/PropertiesMultiset.v
theories/PropertiesNext.v
theories/PropertiesPluginCache.v
theories/PropertiesRecorder.v
theories/PropertiesRope.v
theories/PropertiesRpc.v
theories/PropertiesSearch.v
theories/PropertiesSearchEdit.v
theories/PropertiesSelection.v
theories/PropertiesShadow.v
theories/PropertiesSmall.v
theories/PropertiesSpans.v
theories/PropertiesView.v
theories/PropertiesWatch.v
theories/PropertiesWidthCache.v
theories/PropertiesWord.v
theories/PropertiesWorkspace.v
theories/RebaseFacts.v
theories/RecorderModel.v
theories/RopeCursor.v
theories/RopeIterModel.v
theories/RopeIterProofs.v
theories/RopeMetric.v
theories/RopeModel.v
theories/RopeProofs.v
theories/RopeSpec.v
theories/RpcModel.v
theories/RpcProofs.v
theories/RpcSpec.v
theories/SearchEdit.v
theories/SearchModel.v
theories/SearchProofs.v
theories/SearchSpec.v
theories/SelectionModel.v
theories/SelectionProofs.v
theories/ShadowModel.v
theories/ShadowProofs.v
theories/ShadowSpec.v
theories/ShadowSync.v
theories/SpansModel.v
theories/SpansProofs.v
theories/SpansSpec.v
theories/SpreadFacts.v
theories/StackMapModel.v
theories/SynthProofs.v
theories/TreeModel.v
theories/TreeProofs.v
theories/TreeSpec.v
theories/ViewModel.v
theories/ViewProofs.v
theories/ViewSpec.v
theories/WatchModel.v
theories/WatchProofs.v
theories/WatchSpec.v
theories/WidthCacheModel.v
theories/WordModel.v
theories/WordProofs.v
theories/WorkspaceModel.v
theories/WorkspaceSpec.v
