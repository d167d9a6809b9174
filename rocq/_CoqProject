-Q theories Verif
theories/Base.v
theories/Parsers.v
theories/SpecBase.v
theories/Combinators.v
theories/SpecIter.v
theories/SpecCollect.v
theories/SpecSep.v
theories/IterProofs.v
theories/ManyProofs.v
theories/TillProofs.v
theories/SpecTill.v
theories/TillStateProofs.v
theories/CollectProofs.v
theories/SkipProofs.v
theories/SepProofs.v
theories/TermProofs.v
theories/CountProofs.v
theories/BaseProofs.v
theories/PropsBase.v
theories/PropsIter.v
theories/Ascii.v
theories/SpecAscii.v
theories/AsciiProofs.v
theories/PropsAscii.v
theories/SpecSafe.v
theories/SafeProofs.v
theories/StableProofs.v
theories/PropsSafe.v
theories/Buffer.v
theories/SpecBuffer.v
theories/BufferProofs.v
theories/Stream.v
theories/SpecStream.v
theories/StreamProofs.v
theories/SimProofs.v
theories/PropsBuffer.v
theories/HistoryProofs.v
theories/PropsStream.v
theories/Macro.v
theories/SpecMacro.v
theories/MacroProofs.v
theories/PropsMacro.v
theories/Http.v
theories/SpecHttp.v
theories/HttpProofs.v
theories/HttpStreamProofs.v
theories/PropsHttp.v
theories/Word.v
theories/SpecWord.v
theories/WordProofs.v
theories/WordSafeProofs.v
theories/WordLimitProofs.v
theories/FrugalProofs.v
theories/PropsWord.v
theories/SpecFeature.v
theories/FeatureProofs.v
theories/FeatureStreamProofs.v
theories/PropsFeature.v
theories/SpecLimit.v
theories/LimitProofs.v
theories/LimitTightProofs.v
theories/PropsLimit.v
theories/Derived.v
theories/SpecDerived.v
theories/DerivedProofs.v
theories/PropsDerived.v
theories/MacroHttp.v
theories/PropsMacroHttp.v
theories/Conformance.v
theories/ConformanceMacro.v
theories/ConformanceDocs.v
theories/Unwind.v
theories/SpecUnwind.v
theories/UnwindProofs.v
theories/PropsUnwind.v
theories/SpecReads.v
theories/ReadsProofs.v
theories/PropsReads.v
theories/SpecGather.v
theories/GatherProofs.v
theories/PropsGather.v
theories/Effects.v
theories/SpecEffects.v
theories/EffectsProofs.v
theories/EffectsIterProofs.v
theories/EffectsStreamProofs.v
theories/EffectsExprProofs.v
theories/PropsEffects.v
theories/Numbers.v
theories/SpecNumbers.v
theories/PropsNumbers.v
theories/PropsMacroStream.v
theories/Messages.v
theories/SpecMessages.v
theories/MessagesProofs.v
theories/PropsMessages.v
theories/Bench.v
theories/PropsBench.v
theories/Meter.v
theories/SpecMeter.v
theories/MeterProofs.v
theories/PropsMeter.v
theories/StdIo.v
theories/SpecMixed.v
theories/MixedProofs.v
theories/PropsMixed.v
theories/Bounds.v
theories/PropsBounds.v
theories/SpecOpaque.v
theories/OpaqueProofs.v
theories/OpaqueStreamProofs.v
theories/PropsOpaque.v
theories/SpecLaws.v
theories/LawsProofs.v
theories/PropsLaws.v
theories/SpecAnyBuffer.v
theories/PropsAnyBuffer.v
theories/SpecPaced.v
theories/PacedProofs.v
theories/PropsPaced.v
theories/Client.v
theories/SpecClient.v
theories/LinearProofs.v
theories/ClientProofs.v
theories/PropsClient.v
theories/SpecLoop.v
theories/LoopProofs.v
theories/PropsLoop.v
theories/SpecChain.v
theories/ChainProofs.v
theories/PropsChain.v
theories/SpecAttempts.v
theories/AttemptsProofs.v
theories/PropsAttempts.v
theories/Floats.v
theories/SpecFloats.v
theories/FloatProofs.v
theories/PropsFloats.v
theories/SpecPeg.v
theories/Peg.v
theories/PegProofs.v
theories/PegTotal.v
theories/PropsPeg.v
theories/SpecBlame.v
theories/BlameProofs.v
theories/PropsBlame.v
theories/SpecBnf.v
theories/BnfProofs.v
theories/PropsBnf.v
theories/PegMeter.v
theories/TimeProofs.v
theories/Ll1Linear.v
theories/PropsTime.v
theories/SpecWork.v
theories/WorkProofs.v
theories/PropsWork.v
theories/SpecLines.v
theories/LinesProofs.v
theories/PropsLines.v
theories/Nested.v
theories/PropsNested.v
theories/SpecUnfold.v
theories/UnfoldProofs.v
theories/PropsUnfold.v
theories/SpecKeep.v
theories/KeepProofs.v
theories/PropsKeep.v
theories/MacroEffects.v
theories/SpecMacroEffects.v
theories/MacroEffectsProofs.v
theories/PropsMacroEffects.v
theories/SpecUse.v
theories/UseProofs.v
theories/PropsUse.v
theories/Place.v
theories/SpecPlace.v
theories/PlaceProofs.v
theories/PropsPlace.v
theories/Docs.v
theories/SpecDocs.v
theories/DocsProofs.v
theories/PropsDocs.v
theories/SpecFormat.v
theories/Format.v
theories/SpecFormatStream.v
theories/FormatProofs.v
theories/FormatStreamProofs.v
theories/PropsFormat.v
theories/SpecCatch.v
theories/CatchProofs.v
theories/PropsCatch.v
theories/SpecFollow.v
theories/FollowProofs.v
theories/WaitProofs.v
theories/PropsFollow.v
theories/Rust.v
theories/RustText.v
theories/TextModel.v
theories/TextProofs.v
theories/TextComb.v
theories/TextLoop.v
theories/TextSkip.v
theories/TextMany.v
theories/TextTill.v
theories/TextSep.v
theories/PropsText.v
theories/BufferText.v
theories/BufferTextModel.v
theories/TextWp.v
theories/BufferTextProofs.v
theories/BufferTextSource.v
theories/BufferTextParse.v
theories/BufferTextRead.v
theories/BufferTextInst.v
theories/PropsStreamText.v
theories/SpecTextHistory.v
theories/TextHistoryProofs.v
theories/PropsTextHistory.v
theories/PropsTextSlice.v
theories/SpecTextAny.v
theories/TextAnyProofs.v
theories/PropsTextAny.v
theories/PropsTextAnySlice.v
