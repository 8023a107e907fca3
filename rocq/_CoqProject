-Q theories Verif
theories/Base.v
theories/SortFacts.v
theories/ModelTypes.v
theories/ModelAvg.v
theories/AvgProofs.v
theories/ModelReducer.v
theories/ListFacts.v
theories/LoopProofs.v
theories/SpecReducer.v
theories/ReducerProofs.v
theories/StratProofs.v
theories/PubProofs.v
theories/PropsReducer.v
theories/ModelSeparator.v
theories/SpecSeparator.v
theories/SepProofs.v
theories/SepSpecProofs.v
theories/SepRun.v
theories/SepSafe.v
theories/PropsSeparator.v
theories/ModelAggregator.v
theories/SpecAggregator.v
theories/AggProofs.v
theories/AggRun.v
theories/AggFinal.v
theories/WindowProofs.v
theories/PropsAggregator.v
theories/PropsOutgoing.v
theories/ModelRegistry.v
theories/SpecRegistry.v
theories/RegProofs.v
theories/RegFinal.v
theories/PropsRegistry.v
theories/AggSafe.v
theories/ModelMulti.v
theories/SpecMulti.v
theories/MultiProofs.v
theories/MultiRun.v
theories/PropsMulti.v
theories/ModelJson.v
theories/ModelPacker.v
theories/SpecPacker.v
theories/PackName.v
theories/PackerProofs.v
theories/PackerSize.v
theories/PackerMore.v
theories/PropsPacker.v
theories/PropsPackSep.v
theories/ModelInfo.v
theories/PropsInfo.v
theories/ModelRwlock.v
theories/RwlockProofs.v
theories/PropsRwlock.v
theories/ModelMt.v
theories/PropsMt.v
theories/ModelPool.v
theories/PropsPool.v
theories/ModelLocks.v
theories/PropsLocks.v
theories/PropsSelfLock.v
theories/ModelRaces.v
theories/RaceProofs.v
theories/PropsRaces.v
theories/SpecAccuracy.v
theories/AccuracyProofs.v
theories/PropsAccuracy.v
theories/ModelMeters.v
theories/PropsMeters.v
theories/ModelComposite.v
theories/PropsComposite.v
theories/ModelCodec.v
theories/SpecCodec.v
theories/CodecProofs.v
theories/CodecRound.v
theories/PropsCodec.v
theories/PropsAccept.v
theories/ModelConc.v
theories/SpecConc.v
theories/ConcProofs.v
theories/ConcInv.v
theories/ConcLin.v
theories/ConcNames.v
theories/ConcFinal.v
theories/ConcClear.v
theories/ConcGiven.v
theories/ConcHandler.v
theories/ConcAlone.v
theories/PropsConc.v
theories/PropsConcLock.v
theories/ModelSpin.v
theories/PropsSpin.v
theories/AvgError.v
theories/PropsAverage.v
theories/ModelSystem.v
theories/SpecSystem.v
theories/SystemProofs.v
theories/SystemRun.v
theories/SystemFinal.v
theories/LivesProofs.v
theories/PropsSystem.v
theories/PropsLives.v
theories/SpecTotal.v
theories/RegTotal.v
theories/PropsTotal.v
theories/SpecRounds.v
theories/PropsRounds.v
theories/SpecWire.v
theories/LiftProofs.v
theories/WireProofs.v
theories/PropsWire.v
theories/SpecRelay.v
theories/RelayProofs.v
theories/PropsRelay.v
theories/ModelShards.v
theories/SpecShards.v
theories/ShardProofs.v
theories/ShardRun.v
theories/ShardTotal.v
theories/PropsShards.v
theories/ModelRecords.v
theories/SpecRecords.v
theories/PropsRecords.v
theories/SpecText.v
theories/PropsText.v
theories/PropsFlush.v
theories/ModelEnd.v
theories/PropsEnd.v
theories/ModelBuffers.v
theories/SpecBuffers.v
theories/BufferProofs.v
theories/BufferRun.v
theories/PropsBuffers.v
theories/ModelThrow.v
theories/SpecThrow.v
theories/ThrowProofs.v
theories/SpecThrowSys.v
theories/ThrowSys.v
theories/PropsThrow.v
theories/PropsThrowRun.v
theories/ModelAlloc.v
theories/SpecAlloc.v
theories/AllocProofs.v
theories/PropsAlloc.v
theories/ModelFault.v
theories/SpecFault.v
theories/FaultProofs.v
theories/FaultFinal.v
theories/PropsFault.v
theories/ModelPackThrow.v
theories/SpecPackThrow.v
theories/PackThrowProofs.v
theories/PackThrowFinal.v
theories/PropsPackThrow.v
theories/ModelMultiThrow.v
theories/SpecMultiThrow.v
theories/MultiThrowProofs.v
theories/MultiThrowRun.v
theories/MultiThrowHist.v
theories/PropsMultiThrow.v
theories/ModelAggAlloc.v
theories/SpecAggAlloc.v
theories/AggAllocProofs.v
theories/PropsAggAlloc.v
theories/PropsAggAllocDef.v
theories/PropsConcWindows.v
theories/PropsConcClear.v
theories/ModelReenter.v
theories/SpecReenter.v
theories/ReenterProofs.v
theories/ReenterRun.v
theories/PropsReenter.v
theories/ModelPackAlloc.v
theories/SpecPackAlloc.v
theories/PackAllocProofs.v
theories/PropsPackAlloc.v
theories/ModelClearMt.v
theories/SpecClearMt.v
theories/ClearMtProofs.v
theories/PropsClearMt.v
theories/ModelMove.v
theories/SpecMove.v
theories/MoveProofs.v
theories/PropsMove.v
theories/ModelNest.v
theories/PropsNest.v
theories/PropsPackFit.v
theories/PropsPackExcess.v
theories/ModelSpins.v
theories/SpecSpins.v
theories/SpinsProofs.v
theories/PropsSpins.v
theories/ModelAggMove.v
theories/SpecAggMove.v
theories/AggMoveProofs.v
theories/PropsAggMove.v
theories/SpecObserve.v
theories/ObserveProofs.v
theories/ObserveReg.v
theories/PropsObserve.v
theories/ModelPackReenter.v
theories/SpecPackReenter.v
theories/PackReenterProofs.v
theories/PropsPackReenter.v
theories/ModelMultiAlloc.v
theories/SpecMultiAlloc.v
theories/MultiAllocProofs.v
theories/MultiAllocHist.v
theories/PropsMultiAlloc.v
theories/PropsMultiAllocDef.v
theories/ModelMultiReenter.v
theories/SpecMultiReenter.v
theories/MultiReenterProofs.v
theories/PropsMultiReenter.v
