-Q theories Verif
theories/AssertModel.v
theories/AssertOutputModel.v
theories/Base.v
theories/BitsModel.v
theories/BitsetAppendModel.v
theories/BitsetBits.v
theories/BitsetCapacity.v
theories/BitsetCapacityModel.v
theories/BitsetExprModel.v
theories/BitsetExprSpec.v
theories/BitsetFind.v
theories/BitsetHistory.v
theories/BitsetInt.v
theories/BitsetLogic.v
theories/BitsetModel.v
theories/BitsetProofs.v
theories/BitsetRelease.v
theories/BitsetReleaseModel.v
theories/BitsetShift.v
theories/BitsetSpec.v
theories/BitsetStreamModel.v
theories/BitsetThrow.v
theories/BitsetThrowModel.v
theories/BitsetWrite.v
theories/BoolModel.v
theories/CInt.v
theories/CaptureModel.v
theories/CaptureProofs.v
theories/CellModel.v
theories/CellProofs.v
theories/ConceptModel.v
theories/ConstantsModel.v
theories/ConstexprModel.v
theories/CrcProofs.v
theories/DeferModel.v
theories/EnumArrayModel.v
theories/ExitModel.v
theories/FeatureModel.v
theories/FixedBitsetCopy.v
theories/FixedBitsetHistory.v
theories/FixedBitsetModel.v
theories/FixedBitsetProofs.v
theories/FlagsConfigModel.v
theories/FlagsModel.v
theories/FlagsProofs.v
theories/FlagsSpec.v
theories/FlagsValueModel.v
theories/FloatError.v
theories/FloatModel.v
theories/FloatOps.v
theories/FloatProofs.v
theories/FloatRound.v
theories/FloatSpec.v
theories/FunctionRefModel.v
theories/FunctionRefTypeModel.v
theories/GuardModel.v
theories/GuardProofs.v
theories/HashModel.v
theories/HashProofs.v
theories/HashSpec.v
theories/IterExprModel.v
theories/IterExprProofs.v
theories/IterModel.v
theories/IterProofs.v
theories/MathBytes.v
theories/MathMisc.v
theories/MathModel.v
theories/MathProofs.v
theories/MathProofs2.v
theories/MovableModel.v
theories/MsvcModel.v
theories/OffsetModel.v
theories/OverloadModel.v
theories/PimplModel.v
theories/PimplReenterModel.v
theories/PlatformModel.v
theories/PoolExcess.v
theories/PoolExcessSpec.v
theories/PoolHistory.v
theories/PoolModel.v
theories/PoolProofs.v
theories/PoolReenter.v
theories/PoolReenterModel.v
theories/PoolReenterSim.v
theories/PoolReenterSpec.v
theories/PoolRelease.v
theories/PoolReleaseModel.v
theories/PoolReset.v
theories/PoolSpec.v
theories/PoolThrowModel.v
theories/PoolWrap.v
theories/PoolWrapModel.v
theories/PoolWrapSpec.v
theories/PoolsModel.v
theories/PropAssert.v
theories/PropAssertOutput.v
theories/PropBits.v
theories/PropBitset.v
theories/PropBitsetAppend.v
theories/PropBitsetCapacity.v
theories/PropBitsetExpr.v
theories/PropBitsetLaws.v
theories/PropBitsetStream.v
theories/PropBitsetThrow.v
theories/PropBool.v
theories/PropCapture.v
theories/PropConcept.v
theories/PropConstants.v
theories/PropConstexpr.v
theories/PropCrc.v
theories/PropDefer.v
theories/PropEnumArray.v
theories/PropExit.v
theories/PropFeature.v
theories/PropFixedBitset.v
theories/PropFlags.v
theories/PropFlagsConfig.v
theories/PropFlagsValue.v
theories/PropFloat.v
theories/PropFunctionRef.v
theories/PropFunctionRefType.v
theories/PropGuard.v
theories/PropHash.v
theories/PropHashChain.v
theories/PropIter.v
theories/PropIterExpr.v
theories/PropMath.v
theories/PropMathLaws.v
theories/PropMovable.v
theories/PropMsvc.v
theories/PropOffset.v
theories/PropOverload.v
theories/PropPimpl.v
theories/PropPimplReenter.v
theories/PropPlatform.v
theories/PropPool.v
theories/PropPoolExcess.v
theories/PropPoolReenter.v
theories/PropPoolRelease.v
theories/PropPoolThrow.v
theories/PropPoolWrap.v
theories/PropPools.v
theories/PropRelease.v
theories/PropResult.v
theories/PropResultType.v
theories/PropRounding.v
theories/PropSafeCast.v
theories/PropSafeCastFloat.v
theories/PropScalarRelease.v
theories/PropSignal.v
theories/PropSignalDestroy.v
theories/PropSignalFail.v
theories/PropSignalOrder.v
theories/PropSignalThread.v
theories/PropSignalThrow.v
theories/PropSparse.v
theories/PropStack.v
theories/PropStackAlloc.v
theories/PropStackRelease.v
theories/PropString.v
theories/PropSwap.v
theories/PropThrow.v
theories/PropTraits.v
theories/PropTypeList.v
theories/PropTypeName.v
theories/PropVector.v
theories/PropVectorPointers.v
theories/PropVectorReenter.v
theories/PropVectorRelease.v
theories/PropVisit.v
theories/Release.v
theories/ResultModel.v
theories/ResultProofs.v
theories/ResultTypeModel.v
theories/SafeCastFloatModel.v
theories/SafeCastModel.v
theories/ScalarReleaseModel.v
theories/SignalDestroy.v
theories/SignalDestroyModel.v
theories/SignalEmit.v
theories/SignalFailModel.v
theories/SignalHistory.v
theories/SignalModel.v
theories/SignalOrder.v
theories/SignalOrderSpec.v
theories/SignalProofs.v
theories/SignalSpec.v
theories/SignalThreadModel.v
theories/SignalThrow.v
theories/SignalThrowModel.v
theories/SparseModel.v
theories/SparseProofs.v
theories/StackAllocModel.v
theories/StackModel.v
theories/StackProofs.v
theories/StackRelease.v
theories/StackReleaseModel.v
theories/StringModel.v
theories/StringProofs.v
theories/SwapModel.v
theories/TestsBitset.v
theories/TestsContainers.v
theories/TestsObjects.v
theories/TestsScalars.v
theories/TestsTypes.v
theories/TestsVector.v
theories/ThrowModel.v
theories/ThrowProofs.v
theories/TraitsModel.v
theories/TypeListModel.v
theories/TypeNameModel.v
theories/UnicodeProofs.v
theories/VectorCopy.v
theories/VectorHistory.v
theories/VectorModel.v
theories/VectorProofs.v
theories/VectorReenter.v
theories/VectorReenterModel.v
theories/VectorReenterSim.v
theories/VectorReenterSpec.v
theories/VectorRelease.v
theories/VectorReleaseModel.v
theories/VectorSpec.v
theories/VectorTouch.v
theories/VisitModel.v
theories/VisitProofs.v
theories/VisitSpec.v
