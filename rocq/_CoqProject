-Q theories Verif
theories/Base.v
theories/ModelRule.v
theories/ModelUri.v
theories/Rfc3986.v
theories/Peg.v
theories/PegUri.v
theories/PegLang.v
theories/UriLang.v
theories/UriIPv6.v
theories/SpecHost.v
theories/UriHost.v
theories/UriStruct.v
theories/SpecParts.v
theories/UriSplit.v
theories/SpecUri.v
theories/UriValid.v
theories/UriProps.v
theories/RuleFacts.v
theories/SpecPeg.v
theories/PegSem.v
theories/SpecPath.v
theories/PathFacts.v
theories/PathRfc.v
theories/JoinFacts.v
theories/PropSplitFacts.v
theories/PropSplit.v
theories/PropRule.v
theories/PropPathFacts.v
theories/PropPath.v
theories/ModelPct.v
theories/SpecPct.v
theories/PctFacts.v
theories/PctProps.v
theories/PropPct.v
theories/ModelAlgo.v
theories/ModelPuny.v
theories/SpecPuny.v
theories/AlgoFacts.v
theories/PunyFacts.v
theories/PunyLoop.v
theories/PunyEnc.v
theories/PunyProps.v
theories/PropPuny.v
theories/ModelIcu.v
theories/ModelParts.v
theories/PartsHost.v
theories/PartsDec.v
theories/SpecViews.v
theories/PartsRun.v
theories/PartsEnc.v
theories/PartsDecode.v
theories/PartsProps.v
theories/PartsEx.v
theories/PropParts.v
theories/SpecIcu.v
theories/SpecStore.v
theories/IcuUtf8.v
theories/IcuRead8.v
theories/IcuEnc.v
theories/IcuView.v
theories/IcuViewAll.v
theories/IcuByte.v
theories/IcuCount.v
theories/IcuProps.v
theories/PropIcu.v
theories/ModelFs.v
theories/ModelSpan.v
theories/SpanSim.v
theories/SpanUri.v
theories/SpanCost.v
theories/SpanCostUri.v
theories/SpanLoc.v
theories/SpecPlaces.v
theories/SpanPlaces.v
theories/PlacesFacts.v
theories/SpanValid.v
theories/WorkFacts.v
theories/ModelJoin.v
theories/SpecJoinViews.v
theories/JoinViews.v
theories/PropSpan.v
theories/ModelStream.v
theories/StreamFacts.v
theories/SpecSend.v
theories/SendFacts.v
theories/SendEx.v
theories/PropSend.v
theories/ModelHist.v
theories/SpecHist.v
theories/HistFacts.v
theories/HistPct.v
theories/HistView.v
theories/ModelOut.v
theories/SpecOut.v
theories/OutFacts.v
theories/ModelTool.v
theories/SpecTool.v
theories/ToolFacts.v
theories/PropStream.v
theories/ModelXStream.v
theories/SpecXStream.v
theories/XStreamFacts.v
theories/PropXStream.v
theories/SpecMid.v
theories/IcuMid.v
theories/PropMid.v
theories/ModelParse.v
theories/ParseWork.v
theories/ParseCost.v
theories/PropParse.v
theories/PropHist.v
theories/ModelConc.v
theories/SpecConc.v
theories/ConcFacts.v
theories/ConcMove.v
theories/ConcInst.v
theories/PropConc.v
theories/ModelEdit.v
theories/SpecEdit.v
theories/EditFacts.v
theories/PropEdit.v
theories/ModelSession.v
theories/SpecSession.v
theories/SessionFacts.v
theories/PropSession.v
theories/ModelLocale.v
theories/SpecLocale.v
theories/LocaleFacts.v
theories/PropLocale.v
theories/PropOut.v
theories/PropTool.v
theories/SpecResolve.v
theories/ResolveFacts.v
theories/PropResolve.v
theories/SpecLocal.v
theories/IcuLocal.v
theories/PropLocal.v
theories/SpecFs.v
theories/FsProps.v
theories/PropFs.v
theories/ModelWork.v
theories/WorkPuny.v
theories/PropWork.v
theories/ModelThrow.v
theories/SpecThrow.v
theories/ThrowFacts.v
theories/PropThrow.v
theories/ModelCrash.v
theories/CrashFacts.v
theories/SpecCrash.v
theories/CrashSame.v
theories/PropCrash.v
theories/SpecPieces.v
theories/PctPieces.v
theories/PropPieces.v
theories/SpecAbnf.v
theories/AbnfText.v
theories/AbnfFacts.v
theories/AbnfSplit.v
theories/PropAbnf.v
theories/SpecRoute.v
theories/RouteFacts.v
theories/PropRoute.v
theories/SpecConfine.v
theories/ConfineFacts.v
theories/ConfineFs.v
theories/PropConfine.v
theories/ModelInPlace.v
theories/SpecInPlace.v
theories/InPlaceFacts.v
theories/PropInPlace.v
theories/PunyErr.v
theories/SpecError.v
theories/ModelError.v
theories/ErrFacts.v
theories/PropError.v
theories/SpecIdn.v
theories/IdnFacts.v
theories/PropIdn.v
theories/SpecMerge.v
theories/JoinExact.v
theories/PropMerge.v
theories/ModelAlloc.v
theories/AllocFacts.v
theories/AllocQuiet.v
theories/AllocSize.v
theories/AllocSegs.v
theories/PropAlloc.v
theories/SpecBase.v
theories/BaseFacts.v
theories/BaseText.v
theories/BaseAll.v
theories/PropBase.v
theories/ModelCalls.v
theories/SpecCalls.v
theories/CallFacts.v
theories/CallMore.v
theories/CallTotal.v
theories/PropCalls.v
theories/ModelWide.v
theories/SpecWide.v
theories/WideFacts.v
theories/PropWide.v
theories/ModelSingle.v
theories/SingleFacts.v
theories/PropSingle.v
theories/ModelWin.v
theories/ModelSrcThrow.v
theories/SrcThrowFacts.v
theories/SrcThrowExact.v
theories/SpecSrc.v
theories/SrcThrowPct.v
theories/PropSrc.v
theories/SpecWin.v
theories/WinFacts.v
theories/CommuteFacts.v
theories/WinUri.v
theories/PropWin.v
theories/SpecSteps.v
theories/StepsFacts.v
theories/StepsText.v
theories/PropSteps.v
theories/SpecRegex.v
theories/RegexFacts.v
theories/RegexUri.v
theories/RegexAuth.v
theories/RegexExact.v
theories/PropRegex.v
theories/PropPort.v
theories/SpecCommute.v
theories/CommuteUri.v
theories/PropCommute.v
theories/InfluenceFacts.v
theories/PropInfluence.v
theories/SpecLayers.v
theories/LayersFacts.v
theories/PropLayers.v
theories/SpecCase.v
theories/CaseFacts.v
theories/CaseUri.v
theories/CasePuny.v
theories/CaseHost.v
theories/PropCase.v
theories/SpecCut.v
theories/CutFacts.v
theories/PropCut.v
theories/SpecContinue.v
theories/ContinueFacts.v
theories/PropContinue.v
theories/SpecWritten.v
theories/WrittenFacts.v
theories/PropWritten.v
theories/SpecAlike.v
theories/AlikeFacts.v
theories/PropAlike.v
theories/LengthFacts.v
theories/PropLength.v
theories/SpecFuzz.v
theories/FuzzFacts.v
theories/PropFuzz.v
theories/TestRepo.v
theories/TestMore.v
theories/ModelStack.v
theories/StackFacts.v
theories/PropStack.v
theories/ModelPunyIo.v
theories/SpecPunyIo.v
theories/PunyIoFacts.v
theories/PropPunyIo.v
theories/ModelPctIo.v
theories/PctIoFacts.v
theories/PropPctIo.v
theories/ModelViews.v
theories/SpecLifetimes.v
theories/ModelJoinWork.v
theories/SpecJoinWork.v
theories/JoinWorkFacts.v
theories/PropJoinWork.v
theories/ViewsFacts.v
theories/PropViews.v
theories/SpecIri.v
theories/IriFacts.v
theories/PropIri.v
theories/ModelPipe.v
theories/SpecPipe.v
theories/PipeFacts.v
theories/PropPipe.v
theories/SpecBack.v
theories/BackFacts.v
theories/PropBack.v
