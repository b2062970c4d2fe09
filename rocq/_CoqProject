-Q theories Verif
theories/ModelBase.v
theories/ModelArena.v
theories/ModelSlab.v
theories/ModelMap.v
theories/ModelIter.v
theories/ProofBase.v
theories/ProofArena.v
theories/ProofSlab.v
theories/Spec.v
theories/SpecFacts.v
theories/ProofTree.v
theories/ProofMap.v
theories/ProofOps.v
theories/ProofIter.v
theories/ModelHistory.v
theories/SpecHistory.v
theories/ProofCalls.v
theories/ProofViews.v
theories/ProofExec.v
theories/SpecSteps.v
theories/ProofHistory.v
theories/SpecObs.v
theories/ProofObs.v
theories/ProofMapProps.v
theories/ProofEqClone.v
theories/ProofIterProps.v
theories/ProofSpace.v
theories/SpecSafety.v
theories/ProofSafety.v
theories/ProofQuiet.v
theories/ProofLedger.v
theories/SpecProfiles.v
theories/ProofProfiles.v
theories/ProofDrop.v
theories/SpecMem.v
theories/ProofMem.v
theories/SpecOracle.v
theories/ProofOracle.v
theories/ProofCost.v
theories/ProofLog.v
theories/ModelSet.v
theories/SpecSet.v
theories/ProofSet.v
theories/ProofExtend.v
theories/ModelSimple.v
theories/SpecSimple.v
theories/ProofSimple.v
theories/ProofSimpleOps.v
theories/ProofSimpleExec.v
theories/ProofSimpleProps.v
theories/ModelSimpleSet.v
theories/SpecSimpleSet.v
theories/ProofSimpleSet.v
theories/ModelNodes.v
theories/SpecNodes.v
theories/ProofNodes.v
theories/ProofTamper.v
theories/ModelArenaRun.v
theories/SpecArena.v
theories/ProofArenaRun.v
theories/ModelAutoTraits.v
theories/SpecAlloc.v
theories/ProofAlloc.v
theories/ProofBox.v
theories/ProofReserve.v
theories/Samples.v
theories/PropertiesMap.v
theories/PropertiesIter.v
theories/PropertiesSafety.v
theories/PropertiesMem.v
theories/PropertiesCalls.v
theories/PropertiesSet.v
theories/SpecSetSafety.v
theories/ProofSetSafety.v
theories/PropertiesSetSafety.v
theories/PropertiesSimple.v
theories/PropertiesSimpleSet.v
theories/PropertiesArena.v
theories/PropertiesTraits.v
theories/PropertiesAlloc.v
theories/PropertiesNodes.v
theories/SpecRoom.v
theories/ProofRoom.v
theories/PropertiesRoom.v
theories/ModelDrops.v
theories/SpecDrops.v
theories/ProofGhost.v
theories/ProofDrops.v
theories/ProofDropsMore.v
theories/PropertiesDrops.v
theories/ModelSimpleDrops.v
theories/SpecSimpleDrops.v
theories/ProofSimpleDrops.v
theories/PropertiesSimpleDrops.v
theories/ModelSetDrops.v
theories/SpecSetDrops.v
theories/ProofSetDrops.v
theories/PropertiesSetDrops.v
theories/SpecCost.v
theories/ProofSimpleCost.v
theories/PropertiesCost.v
theories/ModelStack.v
theories/SpecStack.v
theories/ProofStack.v
theories/PropertiesStack.v
theories/ModelEq.v
theories/SpecEq.v
theories/ProofEq.v
theories/PropertiesEq.v
theories/ProofArenaProfiles.v
theories/PropertiesArenaProfiles.v
theories/RepoTests.v
theories/ModelFmt.v
theories/SpecFmt.v
theories/ProofFmt.v
theories/PropertiesFmt.v
theories/ModelTypes.v
theories/ProofTypes.v
theories/PropertiesTypes.v
theories/ModelBorrow.v
theories/ProofBorrow.v
theories/ProofBorrowRun.v
theories/ModelBorrowFree.v
theories/ProofBorrowFree.v
theories/PropertiesBorrow.v
theories/ModelSimpleBorrow.v
theories/ProofSimpleBorrow.v
theories/PropertiesSimpleBorrow.v
theories/ModelFmtPretty.v
theories/SpecFmtPretty.v
theories/ProofFmtPretty.v
theories/PropertiesFmtPretty.v
theories/ModelSetLen.v
theories/SpecSetLen.v
theories/ProofSetLen.v
theories/PropertiesSetLen.v
theories/ModelSource.v
theories/SpecSource.v
theories/ProofSource.v
theories/PropertiesSource.v
theories/SpecUpdates.v
theories/ProofUpdates.v
theories/PropertiesUpdates.v
theories/PropertiesTree.v
theories/ProofZeroSized.v
theories/PropertiesZeroSized.v
theories/SpecProtect.v
theories/ProofProtect.v
theories/PropertiesProtect.v
theories/SpecBudget.v
theories/ProofBudget.v
theories/PropertiesBudget.v
theories/ModelBorrowArena.v
theories/SpecBorrowArena.v
theories/ProofBorrowArena.v
theories/PropertiesBorrowArena.v
theories/ProofRestore.v
theories/PropertiesRestore.v
theories/SpecRebuild.v
theories/ProofRebuild.v
theories/PropertiesRebuild.v
theories/SpecLinks.v
theories/ProofLinks.v
theories/PropertiesLinks.v
theories/SpecCommute.v
theories/ProofCommute.v
theories/PropertiesCommute.v
theories/ModelBenches.v
theories/SpecBenches.v
theories/ProofBenches.v
theories/PropertiesBenches.v
theories/ModelResolve.v
theories/SpecResolve.v
theories/ProofResolve.v
theories/PropertiesResolve.v
theories/ModelServer.v
theories/SpecServer.v
theories/ProofServer.v
theories/PropertiesServer.v
