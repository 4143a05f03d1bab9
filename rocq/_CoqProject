-Q theories Verif
theories/Base.v
theories/BaseL.v
theories/Prog.v
theories/ProgL.v
theories/Prim.v
theories/PrimL.v
theories/Utf8.v
theories/Utf8L.v
theories/Tag.v
theories/Ty.v
theories/Ser.v
theories/De.v
theories/Typed.v
theories/Mig.v
theories/SortL.v
theories/DiscL.v
theories/RtL.v
theories/RtTy.v
theories/RtDer.v
theories/RtSch.v
theories/RtId.v
theories/Parts.v
theories/Agree.v
theories/Total.v
theories/PartsL.v
theories/SerL.v
theories/Ex.v
theories/Spec.v
theories/Cross.v
theories/Evol.v
theories/EvolL.v
theories/IntL.v
theories/PropInt.v
theories/EofL.v
theories/PropWire.v
theories/PropIo.v
theories/MigL.v
theories/Users.v
theories/Yield.v
theories/PropMig.v
theories/PropTotal.v
theories/PropVal.v
theories/OrderFree.v
theories/OrdL.v
theories/PropIdx.v
theories/SliceReader.v
theories/Skip.v
theories/SkipIdx.v
theories/SkipL.v
theories/IdxL.v
theories/PropSkip.v
theories/Walk.v
theories/Hand.v
theories/WalkSpec.v
theories/PropSlice.v
theories/WalkL.v
theories/IdxWalk.v
theories/IdxWalkL.v
theories/IdxEncL.v
theories/PropView.v
theories/PropEnc.v
theories/WalkEncL.v
theories/WalkConvL.v
theories/WalkSess.v
theories/PropWalk.v
theories/WalkRef.v
theories/PropOwned.v
theories/Format.v
theories/FormatL.v
theories/PropFormat.v
theories/Transp.v
theories/TranspL.v
theories/PropTransp.v
theories/Macro.v
theories/MacroSpec.v
theories/MacroL.v
theories/PropMacro.v
theories/MigRef.v
theories/Endian.v
theories/Target.v
theories/PortL.v
theories/PropPort.v
theories/Size.v
theories/SizeL.v
theories/PropSize.v
theories/RollL.v
theories/PropRoll.v
theories/MemL.v
theories/PropMem.v
theories/SkipTot.v
theories/PropUntrusted.v
theories/Steps.v
theories/StepsL.v
theories/PropSteps.v
theories/Legal.v
theories/LegalL.v
theories/PropLegal.v
theories/PropHand.v
theories/Script.v
theories/WalkSafe.v
theories/PropWalkSafe.v
theories/Stream.v
theories/StreamL.v
theories/PropStream.v
theories/SkipForm.v
theories/SkipFormL.v
theories/PropSkipForm.v
theories/Retype.v
theories/RetypeL.v
theories/RetypeS.v
theories/PropRetype.v
theories/Diag.v
theories/DiagL.v
theories/PropDiag.v
theories/Local.v
theories/LocalL.v
theories/PropLocal.v
theories/Feature.v
theories/FeatureL.v
theories/PropFeature.v
theories/FeatSkipL.v
theories/PropFeatSkip.v
theories/Ext.v
theories/PropExt.v
theories/PropReject.v
theories/Calls.v
theories/PropCalls.v
theories/Seqs.v
theories/PropSeqs.v
theories/Vectors.v
theories/Syntax.v
theories/SyntaxSpec.v
theories/SyntaxL.v
theories/PropSyntax.v
theories/Tidy.v
theories/TidyL.v
theories/PropTidy.v
theories/Effort.v
theories/EffortL.v
theories/PropEffort.v
theories/Meter.v
theories/MeterL.v
theories/PropMeter.v
theories/WireSize.v
theories/WireSizeL.v
theories/PropLen.v
theories/Bincode.v
theories/BincodeL.v
theories/PropBincode.v
theories/Borrowed.v
theories/PropBorrowed.v
theories/Closure.v
theories/PropClosure.v
theories/PropReader.v
theories/PropWalkMem.v
theories/Names.v
theories/PropNames.v
theories/PropEnvelope.v
theories/Unsafe.v
theories/PropUnsafe.v
theories/Partial.v
theories/PartialL.v
theories/PartialRollL.v
theories/Journal.v
theories/JournalL.v
theories/PropPartial.v
theories/PropJournal.v
theories/Custom.v
theories/CustomSpec.v
theories/PropCustom.v
theories/PropLater.v
theories/PropWalkLocal.v
theories/PropRollSkip.v
theories/PropSkipAfter.v
theories/Retry.v
theories/PropRetry.v
theories/PropSet.v
theories/FieldAt.v
theories/PropFieldAt.v
theories/SkipDiag.v
theories/SkipDiagL.v
theories/PropSkipDiag.v
theories/PropLimit.v
theories/ErrText.v
theories/PropErrText.v
theories/PropLimitB.v
theories/RevOf.v
theories/PropRevOf.v
theories/Index.v
theories/PropIndex.v
theories/WalkMem.v
theories/PropWalkLimit.v
theories/Deeper.v
theories/PropStack.v
theories/PropSessions.v
theories/Checked.v
theories/PropDebug.v
theories/Cut.v
theories/PropCut.v
theories/PropCustomMem.v
theories/CustomSkip.v
theories/PropCustomSkip.v
theories/PropCustomRun.v
