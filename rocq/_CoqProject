-Q theories Verif
theories/Base.v
theories/ListX.v
theories/ModelFastcdc.v
theories/SpecFastcdc.v
theories/ProofFastcdc.v
theories/ModelGear.v
theories/PropFastcdc.v
theories/ModelPathFilter.v
theories/SpecPathFilter.v
theories/ProofPathFilter.v
theories/PropPathFilter.v
theories/ModelText.v
theories/SpecText.v
theories/ProofText.v
theories/PropText.v
theories/ModelPump.v
theories/SpecPump.v
theories/ProofPump.v
theories/PropPump.v
theories/ModelCdc.v
theories/SpecCdc.v
theories/ProofCdc.v
theories/ProofCdcDiff.v
theories/PropCdc.v
theories/Str.v
theories/ModelFileDiff.v
theories/SpecFileDiff.v
theories/ProofFileDiff.v
theories/PropFileDiff.v
theories/ModelPath.v
theories/SpecPath.v
theories/ProofPath.v
theories/PropPath.v
theories/ModelBatch.v
theories/SpecBatch.v
theories/ProofBatch.v
theories/PropBatch.v
theories/ModelThreadpool.v
theories/SpecThreadpool.v
theories/ProofThreadpool.v
theories/PropThreadpool.v
theories/ModelChunkMap.v
theories/SpecChunkMap.v
theories/ProofChunkMap.v
theories/PropChunkMap.v
theories/ModelDisk.v
theories/SpecDisk.v
theories/ProofDisk.v
theories/ProofDiskRef.v
theories/PropDisk.v
theories/ModelProvider.v
theories/SpecProvider.v
theories/ProofProvider.v
theories/ModelLocks.v
theories/ProofLocks.v
theories/PropProvider.v
theories/ModelAsset.v
theories/SpecAsset.v
theories/ProofAsset.v
theories/ProofEnforce.v
theories/PropAsset.v
theories/ModelManifest.v
theories/SpecManifest.v
theories/ProofManifest.v
theories/ProofTree.v
theories/PropManifest.v
theories/ProofFlush.v
theories/PropFlush.v
theories/ProofAtDir.v
theories/ModelUpdater.v
theories/SpecUpdater.v
theories/ProofUpdater.v
theories/ProofUpdEffect.v
theories/ProofUpdScan.v
theories/ProofUpdApply.v
theories/ProofUpdMachine.v
theories/ProofUpdRun.v
theories/ProofUpdTerm.v
theories/PropUpdater.v
theories/ModelProtocol.v
theories/SpecProtocol.v
theories/ProofProtocol.v
theories/ProofProtocolRun.v
theories/ProofProtocolBad.v
theories/PropProtocol.v
theories/ModelSync.v
theories/SpecSync.v
theories/ProofSync.v
theories/ProofSyncSafe.v
theories/ProofSyncDiff.v
theories/ProofSyncRun.v
theories/ProofSyncAll.v
theories/ProofSyncEx.v
theories/PropSync.v
theories/ProofSyncOk.v
theories/ProofSyncProgress.v
theories/PropSyncEx.v
theories/ModelFuse.v
theories/SpecFuse.v
theories/ProofFuseMem.v
theories/ProofFuseInv.v
theories/ProofFuseOps.v
theories/ProofFusePath.v
theories/ProofFuseSet.v
theories/ProofFuseFin.v
theories/ProofFuseExec.v
theories/ProofFuseWorld.v
theories/ProofFuseHist.v
theories/ProofFuseDir.v
theories/PropFuse.v
theories/PropFuseEx.v
theories/ModelWatch.v
theories/SpecWatch.v
theories/ProofIncr.v
theories/ProofIncrRun.v
theories/PropIncr.v
theories/PropIncrEx.v
theories/SpecMerge.v
theories/PropMerge.v
theories/SpecRunner.v
theories/ModelRunner.v
theories/ProofRunner.v
theories/PropRunner.v
theories/PropRunnerEx.v
theories/SpecQuote.v
theories/ModelQuote.v
theories/PropQuote.v
theories/ParamTypes.v
theories/SpecParams.v
theories/ModelParams.v
theories/PropParams.v
theories/SpecZstd.v
theories/ModelZstd.v
theories/ProofZstd.v
theories/ProofZstdToy.v
theories/PropZstd.v
theories/SpecSessions.v
theories/ModelSessions.v
theories/ProofSessions.v
theories/PropSessions.v
theories/SpecDist.v
theories/ModelDist.v
theories/ProofDist.v
theories/PropDist.v
theories/SpecPort.v
theories/ModelPort.v
theories/ProofPort.v
theories/PropPort.v
theories/SpecIter.v
theories/ModelIter.v
theories/ProofIter.v
theories/PropIter.v
theories/SpecOpener.v
theories/ModelOpener.v
theories/ProofOpener.v
theories/PropOpener.v
theories/SpecContent.v
theories/ModelContent.v
theories/ProofContent.v
theories/PropContent.v
theories/SpecTarget.v
theories/ModelTarget.v
theories/PropTarget.v
theories/SpecCachePath.v
theories/ModelCachePath.v
theories/PropCachePath.v
theories/SpecSocket.v
theories/ModelSocket.v
theories/PropSocket.v
theories/SpecServer.v
theories/ModelServer.v
theories/PropServer.v
theories/SpecOutput.v
theories/ModelOutput.v
theories/PropOutput.v
theories/SpecDeploy.v
theories/ModelDeploy.v
theories/PropDeploy.v
theories/SpecFuseStart.v
theories/ModelFuseStart.v
theories/PropFuseStart.v
theories/SpecProcess.v
theories/ModelProcess.v
theories/PropProcess.v
theories/ModelDirIter.v
theories/SpecDirIter.v
theories/ProofDirIter.v
theories/PropDirIter.v
theories/ModelIndexer.v
theories/SpecIndexer.v
theories/ProofIndexer.v
theories/PropIndexer.v
theories/ModelBuckets.v
theories/SpecBuckets.v
theories/ProofBuckets.v
theories/PropBuckets.v
theories/ModelFinder.v
theories/SpecFinder.v
theories/ProofFinder.v
theories/PropFinder.v
theories/ModelSource.v
theories/SpecSource.v
theories/ProofSource.v
theories/PropSource.v
theories/ModelRescan.v
theories/ProofRescan.v
theories/PropRescan.v
theories/ModelProgress.v
theories/SpecProgress.v
theories/ProofProgress.v
theories/PropProgress.v
theories/ModelStats.v
theories/SpecStats.v
theories/ProofStats.v
theories/PropStats.v
theories/ModelStream.v
theories/SpecStream.v
theories/ProofStream.v
theories/PropStream.v
theories/ModelAddr.v
theories/SpecAddr.v
theories/ProofAddr.v
theories/PropAddr.v
theories/SpecBuffer.v
theories/ModelBuffer.v
theories/ProofBuffer.v
theories/PropBuffer.v
