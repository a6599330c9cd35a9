-Q theories Verif
theories/GoBase.v
theories/Num.v
theories/SparseVec.v
theories/Csr.v
theories/Csc.v
theories/DenseVec.v
theories/DenseMat.v
theories/Mat.v
theories/World.v
theories/Ops.v
theories/BaseProofs.v
theories/AssocProofs.v
theories/CsrProofs.v
theories/SvProofs.v
theories/CsrIterProofs.v
theories/CscProofs.v
theories/DenseProofs.v
theories/MatProofs.v
theories/Spec.v
theories/HeapProofs.v
theories/Api.v
theories/MapLag.v
theories/ReachProofs.v
theories/NumProofs.v
theories/StoreProofs.v
theories/VecProofs.v
theories/FrameProofs.v
theories/LoopProofs.v
theories/StoreThms.v
theories/OpsProofs.v
theories/OpsThms.v
theories/MulThms.v
theories/EwThms.v
theories/EqThms.v
theories/MethThms.v
theories/MaskThms.v
theories/OpsProps.v
theories/MapZero.v
theories/MapZeroThms.v
theories/Witness.v
theories/StoreWitness.v
theories/OpsWitness.v
theories/MapZeroWitness.v
theories/ReduceConc.v
theories/ReduceProofs.v
theories/ReduceVec.v
theories/ReduceSv.v
theories/ReduceWitness.v
theories/PropReduce.v
theories/PropStorage.v
theories/PropOps.v
theories/PropMap.v
theories/MathOps.v
theories/Steps.v
theories/RrefProofs.v
theories/StrassenProofs.v
theories/StrassenMore.v
theories/RrefMore.v
theories/MathThms.v
theories/PropMath.v
theories/Bfs.v
theories/BfsProofs.v
theories/BfsThms.v
theories/BfsCut.v
theories/Laws.v
theories/InPlace.v
theories/InPlaceWitness.v
theories/PropLaws.v
theories/PropInPlace.v
theories/PropBfs.v
theories/SortModel.v
theories/SortProofs.v
theories/SortThms.v
theories/PropSort.v
theories/Mutex.v
theories/MutexProofs.v
theories/MutexThms.v
theories/MutexWitness.v
theories/MutexNest.v
theories/MutexNestProofs.v
theories/PropMutex.v
theories/Access.v
theories/AccessProofs.v
theories/AccessConc.v
theories/AccessRace.v
theories/AccessClash.v
theories/AccessSim.v
theories/AccessThms.v
theories/AccessWitness.v
theories/PropRace.v
theories/Registry.v
theories/Ctx.v
theories/Operators.v
theories/MiscProofs.v
theories/ReduceFormat.v
theories/PropMisc.v
theories/Slices.v
theories/SlicesProofs.v
theories/SlicesThms.v
theories/SlicesRoom.v
theories/SlicesWitness.v
theories/PropAlias.v
theories/Fine.v
theories/FineProofs.v
theories/FineRel.v
theories/FineConc.v
theories/FineThms.v
theories/FineWitness.v
theories/FineStrassen.v
theories/FineCalm.v
theories/FineStrassenRel.v
theories/FineStrassenInv.v
theories/FineStrassenStep.v
theories/FineStrassenThms.v
theories/FineStrassenWitness.v
theories/FineSafe.v
theories/FineCancel.v
theories/FineSame.v
theories/FineCancelThms.v
theories/FineAlone.v
theories/FineCells.v
theories/FineCancelWitness.v
theories/PropFine.v
theories/Iters.v
theories/IterKin.v
theories/IterProofs.v
theories/IterPut.v
theories/IterThms.v
theories/IterWitness.v
theories/PropIter.v
theories/Callbacks.v
theories/CallbackProofs.v
theories/CallbackThms.v
theories/CallbackWitness.v
theories/PropCallback.v
theories/VecHist.v
theories/VecHistProofs.v
theories/VecHistWitness.v
theories/PropVec.v
theories/BfsCall.v
theories/BfsCallProofs.v
theories/BfsCallThms.v
theories/BfsCallWitness.v
theories/PropBfsCall.v
theories/Wrapped.v
theories/WrappedThms.v
theories/WrappedWitness.v
theories/PropWrapped.v
theories/ApplyMem.v
theories/ApplyMemThms.v
theories/ApplyMemWitness.v
theories/PropApply.v
theories/MaskMem.v
theories/MaskMemSim.v
theories/MaskMemThms.v
theories/MaskMemOps.v
theories/MaskMemMore.v
theories/MaskMemWitness.v
theories/PropMaskMem.v
theories/Foreign.v
theories/ForeignThms.v
theories/ForeignOps.v
theories/ForeignWitness.v
theories/PropForeign.v
theories/Sink.v
theories/SinkThms.v
theories/SinkLib.v
theories/SinkWitness.v
theories/PropSink.v
theories/Shared.v
theories/SharedThms.v
theories/SharedLib.v
theories/SharedWitness.v
theories/PropShared.v
theories/Refuse.v
theories/RefuseThms.v
theories/RefuseLib.v
theories/RefuseWitness.v
theories/PropRefuse.v
theories/Judge.v
theories/JudgeThms.v
theories/JudgeWitness.v
theories/PropJudge.v
theories/Inplace.v
theories/InplaceThms.v
theories/InplaceWitness.v
theories/PropInplace.v
