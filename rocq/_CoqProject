-Q theories Verif
theories/Base.v
theories/PySlice.v
theories/Keys.v
theories/NDArray.v
theories/Arrays.v
theories/Chunks.v
theories/Handlers.v
theories/Realise.v
theories/Spec.v
theories/Supported.v
theories/Lib.v
theories/SelLemmas.v
theories/KeyLemmas.v
theories/NewAxLemmas.v
theories/GetBase.v
theories/GetSimple.v
theories/GetBcast.v
theories/GetTrans.v
theories/GetStack.v
theories/GetMosaic.v
theories/GetItem.v
theories/ChunkLemmas.v
theories/AssignLemmas.v
theories/HandlerLemmas.v
theories/RealOps.v
theories/Realisable.v
theories/NumpyApply.v
theories/StreamLemmas.v
theories/RealOK.v
theories/RealiseOK.v
theories/IndexClaims.v
theories/AdapterClaims.v
theories/ClassClaims.v
theories/BroadcastClaims.v
theories/ChunkClaims.v
theories/SaveClaims.v
theories/Compose.v
theories/SaveLoop.v
theories/Samples.v
theories/EllClaims.v
theories/PropKeys.v
theories/PropIndex.v
theories/PropChunks.v
theories/BoundClaims.v
theories/PropBounds.v
theories/Steady.v
theories/SteadyReal.v
theories/SteadyClaims.v
theories/KeyGrouper.v
theories/GroupSpec.v
theories/GroupLemmas.v
theories/PropGroup.v
theories/Skeleton.v
theories/Laziness.v
theories/Small.v
theories/Ufuncs.v
theories/Objects.v
theories/ObjClaims.v
theories/SmallClaims.v
theories/MultiClaims.v
theories/HeapClaims.v
theories/AxesClaims.v
theories/PropSmall.v
theories/PropObjects.v
theories/Built.v
theories/BuiltClaims.v
theories/Sound.v
theories/SwapClaims.v
theories/Fuel.v
theories/MaskKinds.v
theories/KindClaims.v
theories/PropBuilt.v
theories/PropAgg.v
theories/PropSources.v
theories/PropUfuncs.v
theories/ExactSpec.v
theories/Exact.v
theories/PropKinds.v
theories/PropSave.v
theories/SaveIn.v
theories/PropInPlace.v
theories/PropSwap.v
theories/PropRefuted.v
theories/PropAdapter.v
theories/PropSound.v
theories/PropMosaic.v
theories/PropStack.v
theories/PropBcast.v
theories/PropStretch.v
theories/PropNewax.v
theories/Programs.v
theories/ProgramClaims.v
theories/PropTiles.v
theories/Kahn.v
theories/Threads.v
theories/ThreadSpec.v
theories/NetLemmas.v
theories/NetProgress.v
theories/NetSeq.v
theories/NetFail.v
theories/NetSmall.v
theories/ThreadBuild.v
theories/ThreadNodes.v
theories/ThreadSem.v
theories/ThreadClock.v
theories/ThreadFail.v
theories/ThreadSmall.v
theories/ThreadTree.v
theories/ThreadShare.v
theories/OneThread.v
theories/NetDen.v
theories/OneOK.v
theories/ThreadRun.v
theories/PropThreads.v
theories/PropExact.v
theories/Rounding.v
theories/PropRounding.v
theories/FootSpec.v
theories/Footprint.v
theories/PropFootprint.v
theories/Reads.v
theories/ReadSpec.v
theories/ReadLemmas.v
theories/ReadOnce.v
theories/ReadRun.v
theories/PropReads.v
theories/PropSteady.v
theories/PropDoubles.v
theories/Iter.v
theories/PropIter.v
theories/PropPrograms.v
theories/MaskSpec.v
theories/MaskAgree.v
theories/PropMask.v
theories/Probe.v
theories/PropProbe.v
theories/ResultType.v
theories/PropType.v
theories/ResultFill.v
theories/FillSpec.v
theories/PropFill.v
theories/NumpyLeft.v
theories/PropNumpy.v
theories/Memory.v
theories/MemSpec.v
theories/MemLemmas.v
theories/MemReal.v
theories/PropMemory.v
theories/MemThreads.v
theories/MemNet.v
theories/MemNodes.v
theories/MemRun.v
theories/PropMemThreads.v
theories/Dask.v
theories/GroupKeys.v
theories/DaskKeys.v
theories/DaskOK.v
theories/DaskClaims.v
theories/PropDask.v
theories/GroupGrid.v
theories/PropGrid.v
theories/Text.v
theories/PropText.v
