-Q theories Verif
theories/Base.v
theories/Value.v
theories/Num.v
theories/Float64.v
theories/JsonText.v
theories/ModelResult.v
theories/ModelValidate.v
theories/Calls.v
theories/ModelPool.v
theories/SpecResolve.v
theories/ModelCompile.v
theories/MetaSchemas.v
theories/ModelLoader.v
theories/Run.v
theories/World0.v
theories/ModelTemplate.v
theories/SpecErrors.v
theories/ValidateMono.v
theories/ValidateOrder.v
theories/SortKeys.v
theories/ValidateEq.v
theories/ValidateSem.v
theories/ValidateErrors.v
theories/ValidateTerm.v
theories/ValidatePanic.v
theories/ValidateDen.v
theories/ValidateBranch.v
theories/ValidateItems.v
theories/JsonDecode.v
theories/ValidateMisc.v
theories/ValidateRun.v
theories/ValidateApi.v
theories/FloatFacts.v
theories/NumText.v
theories/FloatText.v
theories/SpecJson.v
theories/SpecLocate.v
theories/SpecLoad.v
theories/Utf8.v
theories/NumSpec.v
theories/Pointer.v
theories/JsonStrings.v
theories/JsonGrammar.v
theories/SpecFloat.v
theories/FloatNearest.v
theories/Codec.v
theories/SpecEqual.v
theories/JsonEqual.v
theories/NumExact.v
theories/SpecSchema.v
theories/SpecShape.v
theories/PoolFacts.v
theories/CompileInv.v
theories/CompileKids.v
theories/PoolDocs.v
theories/CodecRange.v
theories/Meaning.v
theories/CompileSem.v
theories/CompileShape.v
theories/CompileRefs.v
theories/CompileTotal.v
theories/CompileKnown.v
theories/PoolResolve.v
theories/LoadFacts.v
theories/LoadAny.v
theories/LoadShape.v
theories/LoadPanic.v
theories/SpecPaths.v
theories/PathFacts.v
theories/LoaderFacts.v
theories/ResolveFacts.v
theories/PoolProps.v
theories/World0Facts.v
theories/World1.v
theories/LoadTotal.v
theories/AnySchema.v
theories/NumNotation.v
theories/NumberProps.v
theories/UniqueProps.v
theories/ExactEqual.v
theories/JsonProps.v
theories/ValidateBisim.v
theories/SpecAlike.v
theories/CompileAlike.v
theories/LoadAlike.v
theories/CompileRoot.v
theories/CheckedAlike.v
theories/Checked.v
theories/Checked0.v
theories/CheckedLeaf.v
theories/CheckedShape.v
theories/CheckedPool.v
theories/SpecFetch.v
theories/CompileFetch.v
theories/CompileDepth.v
theories/LoadFetch.v
theories/LoaderProps.v
theories/SpecMeta.v
theories/LoadDecide.v
theories/CheckedMeta.v
theories/MetaDrafts.v
theories/MetaLoad.v
theories/World2.v
theories/CheckedFetch.v
theories/PropFetch.v
theories/SpecKeywords.v
theories/ValidateKeywords.v
theories/PropValidate.v
theories/PropKeywords.v
theories/PropCompile.v
theories/PropShape.v
theories/PropSession.v
theories/PropPool.v
theories/PropNumbers.v
theories/PropJson.v
theories/LoaderDraft.v
theories/PropLoader.v
theories/ModelFormat.v
theories/SpecFormat.v
theories/FormatRegex.v
theories/FormatTime.v
theories/FormatIP.v
theories/FormatProps.v
theories/PropFormat.v
theories/ModelConc.v
theories/SpecConc.v
theories/ConcChain.v
theories/ConcTemplate.v
theories/ConcShared.v
theories/PropConc.v
theories/ModelURL.v
theories/SpecURI.v
theories/URLPlain.v
theories/URLResolve.v
theories/URLRfc.v
theories/URLTransfer.v
theories/URLProps.v
theories/PropURL.v
theories/SpecReference.v
theories/URIFormat.v
theories/PropURIFormat.v
theories/ModelMail.v
theories/SpecMail.v
theories/MailProps.v
theories/PropMailFormat.v
theories/SpecPointer.v
theories/PointerProps.v
theories/PropPointer.v
theories/SpecMessage.v
theories/MessageProps.v
theories/PropMessage.v
theories/AddFail.v
theories/PropAdd.v
theories/ModelRaw.v
theories/RawProps.v
theories/PropRaw.v
theories/SpecLogic.v
theories/LogicProps.v
theories/PropLogic.v
theories/SpecDrafts.v
theories/DraftsProps.v
theories/DraftsLoad.v
theories/PropDrafts.v
theories/ModelRegexp.v
theories/SpecRegexp.v
theories/RegexpProps.v
theories/RegexpParse.v
theories/RegexpDocs.v
theories/LiteralProps.v
theories/PropRegexp.v
theories/SpecLibrary.v
theories/ModelStack.v
theories/StackProps.v
theories/PropStack.v
theories/SpecReading.v
theories/ReadingProps.v
theories/PropReading.v
theories/SpecKinds.v
theories/KindProps.v
theories/PropKinds.v
theories/CompileVisit.v
theories/ExactFetch.v
theories/ExactLoad.v
theories/CheckedExact.v
theories/PropExact.v
theories/ModelShow.v
theories/ShowDigits.v
theories/ShowShortest.v
theories/ShowProps.v
theories/SpecWhy.v
theories/WhyProps.v
theories/SpecShow.v
theories/ShowMessages.v
theories/PropShow.v
theories/SpecLoop.v
theories/LoopProps.v
theories/LoopCompile.v
theories/PropLoop.v
theories/ModelError.v
theories/SpecFault.v
theories/FaultProps.v
theories/FaultFetch.v
theories/PropFault.v
theories/SpecReason.v
theories/ReasonProps.v
theories/ReasonFetch.v
theories/ReasonComplete.v
theories/ReasonDue.v
theories/ReasonLoad.v
theories/PropReason.v
theories/ReportLoad.v
theories/PropReport.v
theories/SpecLost.v
theories/LostFetch.v
theories/LostLoad.v
theories/CheckedLost.v
theories/PropLost.v
theories/SpecSplit.v
theories/SplitProps.v
theories/PropSplit.v
theories/SpecSwap.v
theories/SwapProps.v
theories/WordProps.v
theories/PropSwap.v
theories/SpecOrder.v
theories/OrderProps.v
theories/PropOrder.v
theories/SpecCache.v
theories/CacheProps.v
theories/PropCache.v
theories/SpecAsks.v
theories/AskProps.v
theories/PropAsks.v
theories/PropEnters.v
