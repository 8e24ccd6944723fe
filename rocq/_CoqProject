-Q theories Verif
theories/Base.v
theories/Spec.v
theories/BaseFacts.v
theories/SyncModel.v
theories/SyncSpec.v
theories/SyncProofs.v
theories/PropsSync.v
theories/ConcModel.v
theories/ConcSpec.v
theories/ConcProofs.v
theories/RelaxedModel.v
theories/RelaxedSpec.v
theories/RelaxedProofs.v
theories/PropsConc.v
theories/SyncMemModel.v
theories/SyncMemSpec.v
theories/SyncMemProofs.v
theories/PropsSyncMem.v
theories/UnsyncModel.v
theories/UnsyncSpec.v
theories/UnsyncProofs.v
theories/PropsUnsync.v
theories/AllocaModel.v
theories/AllocaProofs.v
theories/PropsAlloca.v
theories/ChainModel.v
theories/ChainSpec.v
theories/ChainProofs.v
theories/PropsChain.v
theories/UninitModel.v
theories/UninitSpec.v
theories/UninitProofs.v
theories/PropsUninit.v
theories/FixedVecModel.v
theories/FixedVecSpec.v
theories/FixedVecProofs.v
theories/FixedVecPool.v
theories/FixedVecAcct.v
theories/FixedVecIter.v
theories/PropsFixedVec.v
theories/RcModel.v
theories/RcSpec.v
theories/RcProofs.v
theories/RcRefine.v
theories/RcAcct.v
theories/RcMore.v
theories/PropsRc.v
theories/OwnModel.v
theories/OwnSpec.v
theories/OwnProofs.v
theories/PropsOwn.v
theories/ExitModel.v
theories/ExitSpec.v
theories/ExitProofs.v
theories/PropsExit.v
theories/ExitRefSpec.v
theories/ExitRefProofs.v
theories/PropsExitRef.v
theories/FillModel.v
theories/FillSpec.v
theories/FillProofs.v
theories/PropsFill.v
theories/AllocModel.v
theories/AllocSpec.v
theories/AllocProofs.v
theories/PropsAlloc.v
theories/MemBumpModel.v
theories/MemBumpSpec.v
theories/MemBumpProofs.v
theories/PropsMemBump.v
theories/ConcMemModel.v
theories/ConcMemSpec.v
theories/ConcMemProofs.v
theories/PropsConcMem.v
theories/RcMemModel.v
theories/RcMemSpec.v
theories/RcMemProofs.v
theories/PropsRcMem.v
theories/CmpModel.v
theories/CmpSpec.v
theories/CmpProofs.v
theories/PropsCmp.v
theories/FixedVecMemModel.v
theories/FixedVecMemSpec.v
theories/FixedVecMemProofs.v
theories/PropsFixedVecMem.v
theories/WorldModel.v
theories/WorldSpec.v
theories/WorldProofs.v
theories/PropsWorld.v
theories/ChainMemModel.v
theories/ChainMemSpec.v
theories/ChainMemProofs.v
theories/PropsChainMem.v
theories/ThreadsModel.v
theories/ThreadsSpec.v
theories/ThreadsProofs.v
theories/PropsThreads.v
theories/OwnRefSpec.v
theories/OwnRefProofs.v
theories/PropsOwnRef.v
theories/HeapSpec.v
theories/HeapProofs.v
theories/PropsHeap.v
theories/DrainModel.v
theories/DrainSpec.v
theories/DrainProofs.v
theories/DrainMemModel.v
theories/DrainMemSpec.v
theories/DrainMemProofs.v
theories/PropsDrain.v
theories/UnsizeModel.v
theories/UnsizeSpec.v
theories/UnsizeProofs.v
theories/PropsUnsize.v
theories/PlanSpec.v
theories/PlanProofs.v
theories/PropsPlan.v
theories/FlakyModel.v
theories/FlakySpec.v
theories/FlakyProofs.v
theories/PropsFlaky.v
theories/ReentModel.v
theories/ReentSpec.v
theories/ReentProofs.v
theories/PropsReent.v
theories/NestModel.v
theories/NestSpec.v
theories/NestProofs.v
theories/PropsNest.v
theories/StampSpec.v
theories/StampProofs.v
theories/PropsStamp.v
theories/ArenaModel.v
theories/ArenaSpec.v
theories/ArenaProofs.v
theories/PropsArena.v
theories/GraphModel.v
theories/GraphSpec.v
theories/GraphProofs.v
theories/PropsGraph.v
theories/ParModel.v
theories/ParSpec.v
theories/ParProofs.v
theories/PropsPar.v
theories/MoveModel.v
theories/MoveSpec.v
theories/MoveProofs.v
theories/PropsMove.v
theories/BorrowModel.v
theories/BorrowSpec.v
theories/BorrowProofs.v
theories/BorrowState.v
theories/BorrowWorld.v
theories/BorrowLocal.v
theories/PropsBorrow.v
theories/UBorrowModel.v
theories/UBorrowSpec.v
theories/UBorrowSub.v
theories/UBorrowCells.v
theories/UBorrowCalls.v
theories/UBorrowReset.v
theories/UBorrowWorld.v
theories/UBorrowLocal.v
theories/PropsUBorrow.v
theories/EBorrowModel.v
theories/EBorrowSpec.v
theories/EBorrowBase.v
theories/EBorrowSlot.v
theories/EBorrowOps.v
theories/EBorrowWorld.v
theories/EBorrowLocal.v
theories/PropsEBorrow.v
theories/RBorrowModel.v
theories/RBorrowSpec.v
theories/RBorrowBytes.v
theories/RBorrowOps.v
theories/RBorrowCalls.v
theories/RBorrowWorld.v
theories/RBorrowStep.v
theories/RBorrowPolite.v
theories/PropsRBorrow.v
theories/VBorrowModel.v
theories/VBorrowSpec.v
theories/VBorrowTree.v
theories/VBorrowStep.v
theories/VBorrowLocal.v
theories/VBorrowInit.v
theories/VBorrowByte.v
theories/VBorrowPolite.v
theories/VBorrowRun.v
theories/PropsVBorrow.v
theories/KBorrowModel.v
theories/KBorrowSpec.v
theories/KBorrowLink.v
theories/KBorrowDrop.v
theories/KBorrowTame.v
theories/KBorrowObjs.v
theories/KBorrowWorld.v
theories/KBorrowLocal.v
theories/PropsKBorrow.v
theories/TBorrowModel.v
theories/TBorrowSpec.v
theories/TBorrowWp.v
theories/TBorrowFuel.v
theories/TBorrowStep.v
theories/TBorrowWorld.v
theories/TBorrowLocal.v
theories/PropsTBorrow.v
theories/TreeModel.v
theories/TreeSpec.v
theories/TreeState.v
theories/TreeAct.v
theories/TreeStep.v
theories/TreeWorld.v
theories/TreeLocal.v
theories/TreeReturn.v
theories/PropsTree.v
theories/TExitModel.v
theories/TExitSpec.v
theories/TExitState.v
theories/TExitOps.v
theories/TExitSlot.v
theories/TExitVal.v
theories/TExitStart.v
theories/TExitWorld.v
theories/TExitTop.v
theories/TExitLocal.v
theories/PropsTExit.v
theories/TUnsModel.v
theories/TUnsSpec.v
theories/TUnsVal.v
theories/TUnsWorld.v
theories/TUnsTop.v
theories/TUnsLocal.v
theories/PropsTUns.v
theories/TRcModel.v
theories/TRcSpec.v
theories/TRcOps.v
theories/TRcWorld.v
theories/TRcStep.v
theories/TRcPolite.v
theories/TRcLocal.v
theories/PropsTRc.v
